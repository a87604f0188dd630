(** Proofs about [trapezoid]. *)
From Coq Require Import Reals Lra Lia Psatz Bool.
From Coquelicot Require Import Coquelicot.
From Coq Require Import List.
From Verif Require Import Xf Py Xf_facts Py_facts Calc Spec Utils_model.
Import ListNotations.
Local Open Scope R_scope.

Fixpoint Rtrap (y x : list R) : R :=
  match y, x with
  | y0 :: ((y1 :: _) as y'), x0 :: ((x1 :: _) as x') =>
      (x1 - x0) * (y1 + y0) / 2 + Rtrap y' x'
  | _, _ => 0
  end.

Lemma trapezoid_fin y x : trapezoid (map Fin y) (map Fin x) = Fin (Rtrap y x).
Proof.
  revert x; induction y as [|y0 y IH]; intros x; [reflexivity|].
  destruct y as [|y1 y]; [destruct x; reflexivity|].
  destruct x as [|x0 x]; [reflexivity|]. destruct x as [|x1 x]; [reflexivity|].
  change (trapezoid (map Fin (y0 :: y1 :: y)) (map Fin (x0 :: x1 :: x)))
    with (fadd (fdiv (fmul (fsub (Fin x1) (Fin x0)) (fadd (Fin y1) (Fin y0))) (Fin 2))
               (trapezoid (map Fin (y1 :: y)) (map Fin (x1 :: x)))).
  rewrite IH. autorewrite with xf. rewrite fdiv_fin by lra. reflexivity.
Qed.

Lemma Rtrap_cons y0 y1 y x0 x1 x :
  Rtrap (y0 :: y1 :: y) (x0 :: x1 :: x) = (x1 - x0) * (y1 + y0) / 2 + Rtrap (y1 :: y) (x1 :: x).
Proof. reflexivity. Qed.

Lemma trapezoid_cons y0 y1 y x0 x1 x :
  trapezoid (y0 :: y1 :: y) (x0 :: x1 :: x) =
  fadd (fdiv (fmul (fsub x1 x0) (fadd y1 y0)) (Fin 2)) (trapezoid (y1 :: y) (x1 :: x)).
Proof. reflexivity. Qed.

(** Induction over two lists of equal length. *)
Lemma list_ind2 {A B} (P : list A -> list B -> Prop) :
  P [] [] -> (forall a b l l', length l = length l' -> P l l' -> P (a :: l) (b :: l')) ->
  forall l l', length l = length l' -> P l l'.
Proof.
  intros H0 HS l; induction l as [|a l IH]; intros [|b l'] E; try discriminate; auto.
Qed.

Lemma Rtrap_linear c d y z x : length y = length x -> length z = length x ->
  Rtrap (lin c d y z) x = c * Rtrap y x + d * Rtrap z x.
Proof.
  revert z x; induction y as [|y0 y IH]; intros z x Hy Hz.
  - destruct x; [|discriminate]. destruct z; [|discriminate]. simpl; ring.
  - destruct x as [|x0 x]; [discriminate|]. destruct z as [|z0 z]; [discriminate|].
    destruct y as [|y1 y].
    + destruct x; [|discriminate]. destruct z; [|discriminate]. simpl; ring.
    + destruct x as [|x1 x]; [discriminate|]. destruct z as [|z1 z]; [discriminate|].
      specialize (IH (z1 :: z) (x1 :: x)).
      change (lin c d (y0 :: y1 :: y) (z0 :: z1 :: z))
        with ((c * y0 + d * z0) :: (c * y1 + d * z1) :: lin c d y z).
      change (lin c d (y1 :: y) (z1 :: z)) with ((c * y1 + d * z1) :: lin c d y z) in IH.
      rewrite !Rtrap_cons, IH by (simpl in *; lia). field.
Qed.

Lemma Rtrap_scale c y x : Rtrap (map (Rmult c) y) x = c * Rtrap y x.
Proof.
  revert x; induction y as [|y0 y IH]; intros x; [simpl; ring|].
  destruct y as [|y1 y]; [destruct x; simpl; ring|].
  destruct x as [|x0 x]; [simpl; ring|]. destruct x as [|x1 x]; [simpl; ring|].
  specialize (IH (x1 :: x)). simpl map in *. rewrite !Rtrap_cons, IH. field.
Qed.

Lemma Rtrap_affine a b x0 x : Rtrap (map (fun t => a * t + b) (x0 :: x)) (x0 :: x)
  = (a * (last x x0) ^ 2 / 2 + b * last x x0) - (a * x0 ^ 2 / 2 + b * x0).
Proof.
  revert x0; induction x as [|x1 x IH]; intros x0; [simpl; ring|].
  specialize (IH x1). simpl map in *. rewrite Rtrap_cons, IH.
  destruct x as [|x2 x]; [simpl; field|].
  replace (last (x1 :: x2 :: x) x0) with (last (x2 :: x) x1).
  2:{ simpl. clear. revert x2 x0 x1. induction x; intros; auto. apply IHx. }
  field.
Qed.

Lemma Rtrap_concat y1 ym y2 x1 xm x2 : length y1 = length x1 ->
  Rtrap (y1 ++ ym :: y2) (x1 ++ xm :: x2) = Rtrap (y1 ++ [ym]) (x1 ++ [xm]) + Rtrap (ym :: y2) (xm :: x2).
Proof.
  revert x1; induction y1 as [|y0 y1 IH]; intros [|x0 x1] E; try discriminate.
  - simpl app. replace (Rtrap [ym] [xm]) with 0 by reflexivity. ring.
  - injection E as E. specialize (IH x1 E).
    destruct y1 as [|y1 y1'], x1 as [|x1 x1']; try discriminate.
    + simpl app. rewrite !Rtrap_cons. replace (Rtrap [ym] [xm]) with 0 by reflexivity. ring.
    + simpl app in *. rewrite !Rtrap_cons, IH. ring.
Qed.

Lemma Rtrap_rev y x : length y = length x -> Rtrap (rev y) (rev x) = - Rtrap y x.
Proof.
  revert x; induction y as [|y0 y IH]; intros [|x0 x] E; try discriminate; [simpl; ring|].
  injection E as E. specialize (IH x E).
  destruct y as [|y1 y], x as [|x1 x]; try discriminate; [simpl; ring|].
  rewrite Rtrap_cons.
  change (rev (y0 :: y1 :: y)) with ((rev y ++ [y1]) ++ [y0]).
  change (rev (x0 :: x1 :: x)) with ((rev x ++ [x1]) ++ [x0]).
  rewrite <- !app_assoc. simpl app. rewrite Rtrap_concat.
  - change (rev y ++ [y1]) with (rev (y1 :: y)). change (rev x ++ [x1]) with (rev (x1 :: x)).
    rewrite IH, Rtrap_cons. replace (Rtrap [y0] [x0]) with 0 by reflexivity. field.
  - rewrite !rev_length. simpl in E; lia.
Qed.

Lemma Rtrap_monotone y z x : length y = length x -> increasing x ->
  Forall2 Rle y z -> Rtrap y x <= Rtrap z x.
Proof.
  revert z x; induction y as [|y0 y IH]; intros z [|x0 x] E Hx H; try discriminate;
    inversion H as [|? z0 ? zs Hz Hzs]; subst.
  - simpl; lra.
  - injection E as E. destruct y as [|y1 y], x as [|x1 x]; try discriminate.
    + inversion Hzs; subst. simpl; lra.
    + inversion Hzs as [|? z1 ? zs' Hz1 Hzs']; subst.
      destruct Hx as [H01 Hx].
      rewrite !Rtrap_cons. specialize (IH (z1 :: zs') (x1 :: x) E Hx Hzs).
      assert ((x1 - x0) * (y1 + y0) <= (x1 - x0) * (z1 + z0)) by (apply Rmult_le_compat_l; lra).
      lra.
Qed.

(** The piecewise linear interpolant. *)
Lemma is_RInt_linear a b ya yb : a < b ->
  is_RInt (fun t => ya + (yb - ya) / (b - a) * (t - a)) a b ((b - a) * (yb + ya) / 2).
Proof.
  intros H. evar_last.
  apply (is_RInt_FTC (fun t => ya * t + (yb - ya) / (b - a) * ((t - a) * (t - a)) / 2)).
  - intros t _. auto_derive; auto. field. lra.
  - intros t _. apply (ex_derive_continuous (fun t => ya + (yb - ya) / (b - a) * (t - a))). auto_derive; auto.
  - simpl. field. lra.
Qed.

Lemma Rtrap_interpolant p y x0 x : length y = length (x0 :: x) -> strictly_increasing (x0 :: x) ->
  interpolates_linearly p y (x0 :: x) -> is_RInt p x0 (last x x0) (Rtrap y (x0 :: x)).
Proof.
  revert y x0; induction x as [|x1 x IH]; intros y x0 E Hx Hp.
  - destruct y as [|y0 [|? ?]]; try discriminate. simpl.
    evar_last. apply @is_RInt_point. reflexivity.
  - destruct y as [|y0 [|y1 y]]; try discriminate. destruct Hx as [H01 Hx].
    rewrite Rtrap_cons.
    replace (last (x1 :: x) x0) with (last x x1).
    2:{ destruct x; simpl; auto. clear. revert r x0 x1. induction x; intros; auto. apply IHx. }
    apply (is_RInt_Chasles p x0 x1 (last x x1)).
    + apply (is_RInt_ext_le (fun t => y0 + (y1 - y0) / (x1 - x0) * (t - x0))); [lra| |].
      * intros t Ht. symmetry. apply (Hp 0%nat); simpl; [lia|lra].
      * now apply is_RInt_linear.
    + apply IH; auto. intros i Hi. apply (Hp (S i)). simpl in *; lia.
Qed.

Lemma Rtrap_nonneg y x : length y = length x -> increasing x -> Forall (fun v => 0 <= v) y -> 0 <= Rtrap y x.
Proof.
  revert x; induction y as [|y0 y IH]; intros [|x0 x] E Hx H; try discriminate; [simpl; lra|].
  injection E as E. destruct y as [|y1 y], x as [|x1 x]; try discriminate; [simpl; lra|].
  inversion H as [|? ? Ha Hb]; subst. inversion Hb as [|? ? Hc Hd]; subst.
  destruct Hx as [H01 Hx]. rewrite Rtrap_cons. specialize (IH (x1 :: x) E Hx Hb). nra.
Qed.

(** A finite trapezoidal sum on a finite grid has finite ordinates. *)
Lemma fadd_fin_inv a b r : fadd a b = Fin r -> exists u v, a = Fin u /\ b = Fin v /\ r = u + v.
Proof. destruct a, b; simpl; intros E; try discriminate; injection E; eauto. Qed.
Lemma fmul_fin_inv u b r : fmul (Fin u) b = Fin r -> exists v, b = Fin v /\ r = u * v.
Proof.
  destruct b as [v| | |]; simpl; intros E; try discriminate.
  - injection E; eauto.
  - unfold inf_of_sign in E; destruct (Rltb 0 u); [|destruct (Rltb u 0)]; discriminate.
  - unfold inf_of_sign in E; destruct (Rltb 0 u); [|destruct (Rltb u 0)]; discriminate.
Qed.
Lemma fdiv2_fin_inv a r : fdiv a (Fin 2) = Fin r -> exists u, a = Fin u /\ r = u / 2.
Proof.
  destruct a as [u| | |]; simpl; intros E; try discriminate.
  - rewrite Reqb_false in E by lra. injection E; eauto.
  - destruct (Rltb 2 0); discriminate.
  - destruct (Rltb 2 0); discriminate.
Qed.

Lemma trapezoid_fin_inv y x r : length y = length x -> (2 <= length x)%nat ->
  trapezoid y (map Fin x) = Fin r -> exists ys, y = map Fin ys /\ Rtrap ys x = r.
Proof.
  revert x r; induction y as [|y0 y IH]; intros [|x0 x] r E L H; try discriminate; [simpl in L; lia|].
  injection E as E. destruct y as [|y1 y], x as [|x1 x]; try discriminate; [simpl in L; lia|].
  simpl map in H. rewrite trapezoid_cons in H.
  apply fadd_fin_inv in H. destruct H as [u [v [H1 [H2 ->]]]].
  apply fdiv2_fin_inv in H1. destruct H1 as [w [H1 ->]].
  rewrite fsub_fin in H1. apply fmul_fin_inv in H1. destruct H1 as [s [H1 ->]].
  apply fadd_fin_inv in H1. destruct H1 as [a [b [-> [-> ->]]]].
  destruct y as [|y2 y], x as [|x2 x]; try discriminate.
  - exists [b; a]. split; auto. simpl in H2. injection H2 as <-. simpl. lra.
  - destruct (IH (x1 :: x2 :: x) v) as [ys [E1 E2]]; [simpl in *; lia|simpl; lia|exact H2|].
    destruct ys as [|z ys]; [discriminate|]. simpl in E1. injection E1 as E1 E3. subst z.
    exists (b :: a :: ys). split; [simpl; now rewrite E3|].
    rewrite Rtrap_cons, E2. reflexivity.
Qed.

(** Normalising by a finite non-zero trapezoidal sum gives unit sum. *)
Lemma trapezoid_normalise y x N : length y = length x -> (2 <= length x)%nat ->
  trapezoid y (map Fin x) = Fin N -> N <> 0 ->
  trapezoid (map (fun v => fdiv v (Fin N)) y) (map Fin x) = Fin 1.
Proof.
  intros E L H HN. destruct (trapezoid_fin_inv _ _ _ E L H) as [ys [-> HR]].
  rewrite map_map.
  rewrite (map_ext _ (fun v => Fin (/ N * v))).
  2:{ intros v. rewrite fdiv_fin by auto. f_equal. unfold Rdiv; ring. }
  rewrite <- (map_map (Rmult (/ N)) Fin).
  rewrite trapezoid_fin, Rtrap_scale, HR. f_equal. field. auto.
Qed.
