(** Lemmas about [linspace] and trapezoids of positive values. *)
From Coq Require Import Reals Lra Lia.
From Coquelicot Require Import Coquelicot.
From Coq Require Import List.
From Verif Require Import Xf Py Xf_facts Utils_model Calc Spec Trap_facts Np.
Import ListNotations.
Local Open Scope R_scope.

Lemma linspace_length a b n : length (linspace a b n) = n.
Proof. unfold linspace. now rewrite map_length, seq_length. Qed.

Lemma si_map_seq (f : nat -> R) s n : (forall i, f i < f (S i)) -> strictly_increasing (map f (seq s n)).
Proof.
  intros H. revert s; induction n as [|n IH]; intros s; simpl; auto.
  specialize (IH (S s)). destruct n as [|n]; simpl in *; auto.
Qed.
Lemma linspace_incr a b n : a < b -> (2 <= n)%nat -> strictly_increasing (linspace a b n).
Proof.
  intros H Hn. apply si_map_seq. intros i. rewrite S_INR.
  assert (0 < INR (n - 1)) by (apply lt_0_INR; lia).
  assert (0 < (b - a) / INR (n - 1)) by (apply Rdiv_lt_0_compat; lra). lra.
Qed.
Lemma linspace_bounds a b n x : a <= b -> In x (linspace a b n) -> a <= x <= b.
Proof.
  intros H Hx. unfold linspace in Hx. apply in_map_iff in Hx. destruct Hx as [i [<- Hi]].
  apply in_seq in Hi. destruct n as [|[|n]]; [lia| |].
  - assert (i = 0)%nat by lia. subst i. simpl. lra.
  - replace (S (S n) - 1)%nat with (S n) by lia.
    assert (0 < INR (S n)) by (apply lt_0_INR; lia).
    assert (0 <= INR i <= INR (S n)) by (split; [apply pos_INR|apply le_INR; lia]).
    assert (0 <= (b - a) / INR (S n)) by (apply Rmult_le_pos; [lra|left; now apply Rinv_0_lt_compat]).
    assert (E : INR (S n) * ((b - a) / INR (S n)) = b - a) by (field; lra).
    nra.
Qed.
Lemma linspace_first a b n : (1 <= n)%nat -> hd 0 (linspace a b n) = a.
Proof. intros H. destruct n; [lia|]. simpl. ring. Qed.
Lemma linspace_last a b n : (2 <= n)%nat -> last (linspace a b n) 0 = b.
Proof.
  intros H. unfold linspace. destruct n as [|n]; [lia|].
  rewrite seq_S, map_app. simpl map at 2. rewrite last_last. simpl.
  replace (n - 0)%nat with n by lia. field. apply not_0_INR; lia.
Qed.

Lemma si_increasing x : strictly_increasing x -> increasing x.
Proof.
  induction x as [|x0 x IH]; simpl; auto. destruct x as [|x1 x]; auto.
  intros [H1 H2]. split; [lra|]. now apply IH.
Qed.

Lemma Rtrap_pos y x : length y = length x -> (2 <= length x)%nat -> strictly_increasing x ->
  Forall (fun v => 0 < v) y -> 0 < Rtrap y x.
Proof.
  intros E L Hx H. destruct y as [|y0 [|y1 y]], x as [|x0 [|x1 x]]; simpl in L, E; try lia; try discriminate.
  inversion H as [|? ? Ha Hb]; subst. inversion Hb as [|? ? Hc Hd]; subst.
  destruct Hx as [H01 Hx]. rewrite Rtrap_cons.
  assert (0 <= Rtrap (y1 :: y) (x1 :: x)).
  { apply Rtrap_nonneg; [simpl; lia|now apply si_increasing|].
    eapply Forall_impl; [|exact Hb]. intros; lra. }
  assert (0 < (x1 - x0) * (y1 + y0)) by (apply Rmult_lt_0_compat; lra). lra.
Qed.
