(** Lemmas about the extended numbers of [Xf]. *)
From Coq Require Import Reals ZArith List Bool Lra Lia Permutation.
From Coquelicot Require Import Coquelicot.
From Coq Require Import List.
From Verif Require Import Xf.
Import ListNotations.
Local Open Scope R_scope.

Lemma Rltb_spec a b : Bool.reflect (a < b) (Rltb a b).
Proof. unfold Rltb; destruct (Rlt_dec a b); constructor; auto. Qed.
Lemma Rleb_spec a b : Bool.reflect (a <= b) (Rleb a b).
Proof. unfold Rleb; destruct (Rle_dec a b); constructor; auto. Qed.
Lemma Reqb_spec a b : Bool.reflect (a = b) (Reqb a b).
Proof. unfold Reqb; destruct (Req_EM_T a b); constructor; auto. Qed.

Lemma Rltb_true a b : a < b -> Rltb a b = true.
Proof. intros H; destruct (Rltb_spec a b); auto; lra. Qed.
Lemma Rltb_false a b : b <= a -> Rltb a b = false.
Proof. intros H; destruct (Rltb_spec a b); auto; lra. Qed.
Lemma Rleb_true a b : a <= b -> Rleb a b = true.
Proof. intros H; destruct (Rleb_spec a b); auto; lra. Qed.
Lemma Rleb_false a b : b < a -> Rleb a b = false.
Proof. intros H; destruct (Rleb_spec a b); auto; lra. Qed.
Lemma Reqb_refl a : Reqb a a = true.
Proof. destruct (Reqb_spec a a); auto. Qed.
Lemma Reqb_true a b : a = b -> Reqb a b = true.
Proof. intros H; destruct (Reqb_spec a b); auto; lra. Qed.
Lemma Reqb_false a b : a <> b -> Reqb a b = false.
Proof. intros H; destruct (Reqb_spec a b); auto; lra. Qed.

Lemma fle_fin a b : fle (Fin a) (Fin b) = Rleb a b.
Proof.
  unfold fle, flt, feq.
  destruct (Rltb_spec a b), (Reqb_spec a b), (Rleb_spec a b); simpl; auto; lra.
Qed.
Lemma fge_fin a b : fge (Fin a) (Fin b) = Rleb b a.
Proof. apply fle_fin. Qed.
Lemma flt_fin a b : flt (Fin a) (Fin b) = Rltb a b.
Proof. reflexivity. Qed.
Lemma fgt_fin a b : fgt (Fin a) (Fin b) = Rltb b a.
Proof. reflexivity. Qed.
Lemma feq_fin a b : feq (Fin a) (Fin b) = Reqb a b.
Proof. reflexivity. Qed.

(** Destruct every boolean comparison of reals appearing in the goal, discharging
    contradictory branches with [lra]. *)
Ltac rcase1 :=
  match goal with
  | |- context [Rltb ?a ?b] => destruct (Rltb_spec a b)
  | |- context [Rleb ?a ?b] => destruct (Rleb_spec a b)
  | |- context [Reqb ?a ?b] => destruct (Reqb_spec a b)
  end; try (exfalso; lra).
Ltac rcase := repeat (rcase1; simpl; try reflexivity).

Lemma fdiv_fin a b : b <> 0 -> fdiv (Fin a) (Fin b) = Fin (a / b).
Proof. intros H; simpl; rewrite Reqb_false; auto. Qed.
Lemma flog_fin a : 0 < a -> flog (Fin a) = Fin (ln a).
Proof. intros H; simpl; rewrite Rltb_true; auto. Qed.
Lemma flog_zero : flog (Fin 0) = NInf.
Proof. simpl; rewrite Rltb_false, Reqb_refl by lra; auto. Qed.
Lemma flog_neg a : a < 0 -> flog (Fin a) = NaN.
Proof. intros H; simpl; rewrite Rltb_false, Reqb_false by lra; auto. Qed.
Lemma fpow_fin a b : 0 < a -> fpow (Fin a) (Fin b) = Fin (Rpower a b).
Proof.
  intros H; unfold fpow; rewrite !feq_fin.
  destruct (Reqb_spec b 0) as [->|Hb]; [now rewrite Rpower_O|].
  destruct (Reqb_spec a 1) as [->|Ha].
  - f_equal; unfold Rpower; rewrite ln_1, Rmult_0_r, exp_0; reflexivity.
  - now rewrite Rltb_true.
Qed.
Lemma fpow_zero_pos b : 0 < b -> fpow (Fin 0) (Fin b) = Fin 0.
Proof.
  intros H; unfold fpow; rewrite !feq_fin.
  rewrite !Reqb_false by lra; rewrite Rltb_false, Reqb_refl, Rltb_true by lra; auto.
Qed.
Lemma fpow_zero_zero x : fpow x (Fin 0) = Fin 1.
Proof. unfold fpow; rewrite feq_fin, Reqb_refl; auto. Qed.
Lemma fpow_zero_neg b : b < 0 -> fpow (Fin 0) (Fin b) = PInf.
Proof.
  intros H; unfold fpow; rewrite !feq_fin.
  rewrite !Reqb_false by lra; rewrite Rltb_false, Reqb_refl, Rltb_false by lra; auto.
Qed.
Lemma fpow_neg_nonint a b : a < 0 -> (forall z : Z, b <> IZR z) -> fpow (Fin a) (Fin b) = NaN.
Proof.
  intros Ha Hb; unfold fpow; rewrite !feq_fin.
  rewrite (Reqb_false b 0) by (apply (Hb 0%Z)); rewrite (Reqb_false a 1), (Reqb_false a 0), Rltb_false by lra.
  unfold is_int; rewrite Reqb_false; [reflexivity|].
  intros E; apply (Hb (Int_part b)); symmetry; exact E.
Qed.

Lemma MAXF_pos : 0 < MAXF.
Proof. unfold MAXF; apply IZR_lt; reflexivity. Qed.
Lemma MAXF_big : IZR (2^1023) <= MAXF.
Proof. unfold MAXF; apply IZR_le; vm_compute; discriminate. Qed.
Lemma MAXF_ge_1 : 1 <= MAXF.
Proof. unfold MAXF; apply IZR_le; vm_compute; discriminate. Qed.
Global Opaque MAXF.

Lemma fadd_comm x y : fadd x y = fadd y x.
Proof. destruct x, y; simpl; auto; f_equal; ring. Qed.
Lemma fadd_assoc x y z : fadd x (fadd y z) = fadd (fadd x y) z.
Proof. destruct x, y, z; simpl; auto; f_equal; ring. Qed.
Lemma fadd_0_l x : fadd (Fin 0) x = x.
Proof. destruct x; simpl; auto; f_equal; ring. Qed.
Lemma fadd_0_r x : fadd x (Fin 0) = x.
Proof. destruct x; simpl; auto; f_equal; ring. Qed.
Lemma fmul_comm x y : fmul x y = fmul y x.
Proof. destruct x, y; simpl; auto; f_equal; ring. Qed.
Lemma fmul_1_l x : fmul (Fin 1) x = x.
Proof.
  destruct x; simpl; auto; try (f_equal; ring);
  unfold inf_of_sign; rewrite Rltb_true by lra; auto.
Qed.
Lemma fmul_1_r x : fmul x (Fin 1) = x.
Proof. rewrite fmul_comm; apply fmul_1_l. Qed.
Lemma inf_of_sign_0 : inf_of_sign 0 = NaN.
Proof. unfold inf_of_sign; rewrite !Rltb_false by lra; auto. Qed.
Lemma inf_of_sign_pos a : 0 < a -> inf_of_sign a = PInf.
Proof. intros; unfold inf_of_sign; rewrite Rltb_true; auto. Qed.
Lemma inf_of_sign_neg a : a < 0 -> inf_of_sign a = NInf.
Proof. intros; unfold inf_of_sign; rewrite Rltb_false, Rltb_true by lra; auto. Qed.

Lemma fpow_2 x : fpow x (Fin 2) = fsq x.
Proof.
  unfold fpow, fsq; rewrite feq_fin, Reqb_false by lra.
  assert (IP : Int_part 2 = 2%Z).
  { unfold Int_part. rewrite <- (tech_up 2 3) by lra. reflexivity. }
  assert (I2 : is_int 2 = true) by (unfold is_int; rewrite IP; apply Reqb_refl).
  assert (O2 : is_odd_int 2 = false) by (unfold is_odd_int; rewrite I2, IP; reflexivity).
  destruct x as [a| | |].
  - rewrite feq_fin; destruct (Reqb_spec a 1) as [->|Ha]; [simpl; f_equal; ring|].
    destruct (Rltb_spec 0 a) as [Hp|Hp].
    + simpl; f_equal. replace 2 with (INR 2) by (simpl; ring). rewrite Rpower_pow by auto. simpl; ring.
    + destruct (Reqb_spec a 0) as [->|H0].
      * rewrite Rltb_true by lra; simpl; f_equal; ring.
      * rewrite I2, O2; simpl; f_equal.
        replace 2 with (INR 2) by (simpl; ring). rewrite Rpower_pow by lra. simpl; ring.
  - simpl; rewrite Rltb_true by lra; auto.
  - simpl; rewrite Rltb_true, O2 by lra; auto.
  - simpl; auto.
Qed.

(** Sums. *)
Lemma fsum_app l1 l2 : fsum (l1 ++ l2) = fadd (fsum l1) (fsum l2).
Proof.
  induction l1 as [|x l1 IH]; simpl; [now rewrite fadd_0_l|].
  unfold fsum in *; rewrite IH, fadd_assoc; auto.
Qed.
Lemma fsum_perm l1 l2 : Permutation l1 l2 -> fsum l1 = fsum l2.
Proof.
  induction 1 as [|x l l' Hp IH|x y l|l l' l'' H1 IH1 H2 IH2]; simpl; auto.
  - unfold fsum in *; now rewrite IH.
  - rewrite !fadd_assoc, (fadd_comm x y); auto.
  - congruence.
Qed.

(** Real sums, for specifications. *)
Definition Rsum (l : list R) : R := fold_right Rplus 0 l.
Lemma fsum_map_fin l : fsum (map Fin l) = Fin (Rsum l).
Proof. induction l as [|x l IH]; simpl; auto; unfold fsum in *; now rewrite IH. Qed.
Lemma Rsum_app l1 l2 : Rsum (l1 ++ l2) = Rsum l1 + Rsum l2.
Proof. unfold Rsum; induction l1 as [|x l1 IH]; simpl; [ring|rewrite IH; ring]. Qed.
Lemma Rsum_scale c l : Rsum (map (Rmult c) l) = c * Rsum l.
Proof. unfold Rsum; induction l as [|x l IH]; simpl; [ring|rewrite IH; ring]. Qed.
Lemma Rsum_nonneg l : Forall (fun x => 0 <= x) l -> 0 <= Rsum l.
Proof. induction 1; simpl; lra. Qed.
Lemma Rsum_pos l : l <> [] -> Forall (fun x => 0 < x) l -> 0 < Rsum l.
Proof.
  intros Hne H; destruct H as [|x l Hx Hl]; [congruence|]; simpl.
  assert (0 <= Rsum l) by (apply Rsum_nonneg; eapply Forall_impl; [|exact Hl]; simpl; intros; lra).
  lra.
Qed.
Lemma fmean_map_fin l : l <> [] -> fmean (map Fin l) = Fin (Rsum l / INR (length l)).
Proof.
  intros H; unfold fmean; rewrite fsum_map_fin, map_length; unfold of_nat.
  rewrite fdiv_fin; auto. apply not_0_INR. destruct l; simpl; congruence || lia.
Qed.

Lemma fadd_fin a b : fadd (Fin a) (Fin b) = Fin (a + b). Proof. reflexivity. Qed.
Lemma fsub_fin a b : fsub (Fin a) (Fin b) = Fin (a - b). Proof. reflexivity. Qed.
Lemma fmul_fin a b : fmul (Fin a) (Fin b) = Fin (a * b). Proof. reflexivity. Qed.
Lemma fopp_fin a : fopp (Fin a) = Fin (- a). Proof. reflexivity. Qed.
Lemma fexp_fin a : fexp (Fin a) = Fin (exp a). Proof. reflexivity. Qed.
Lemma fsq_fin a : fsq (Fin a) = Fin (a * a). Proof. reflexivity. Qed.
Lemma fabs_fin a : fabs (Fin a) = Fin (Rabs a). Proof. reflexivity. Qed.
Lemma fcos_fin a : fcos (Fin a) = Fin (cos a). Proof. reflexivity. Qed.
Lemma nan_to_num_Fin a : nan_to_num (Fin a) = Fin a. Proof. reflexivity. Qed.
Lemma fexpit_fin a : fexpit (Fin a) = Fin (/ (1 + exp (- a))). Proof. reflexivity. Qed.
Lemma of_bool_true : of_bool true = Fin 1. Proof. reflexivity. Qed.
Lemma of_bool_false : of_bool false = Fin 0. Proof. reflexivity. Qed.
Global Hint Rewrite fadd_fin fsub_fin fmul_fin fopp_fin fexp_fin fsq_fin fabs_fin fcos_fin
  nan_to_num_Fin fexpit_fin of_bool_true of_bool_false : xf.
Lemma fmul_0_NInf : fmul (Fin 0) NInf = NaN.
Proof. simpl; now rewrite inf_of_sign_0. Qed.
Lemma fmul_0_PInf : fmul (Fin 0) PInf = NaN.
Proof. simpl; now rewrite inf_of_sign_0. Qed.
Lemma fmul_pos_NInf a : 0 < a -> fmul (Fin a) NInf = NInf.
Proof. intros; simpl; now rewrite inf_of_sign_pos. Qed.
Lemma fmul_pos_PInf a : 0 < a -> fmul (Fin a) PInf = PInf.
Proof. intros; simpl; now rewrite inf_of_sign_pos. Qed.
Lemma fadd_NaN_r x : fadd x NaN = NaN. Proof. destruct x; reflexivity. Qed.
Lemma fmul_NaN_r x : fmul x NaN = NaN. Proof. destruct x; reflexivity. Qed.
