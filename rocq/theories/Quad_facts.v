(** The error of the trapezoid rule for twice differentiable functions. *)
From Coq Require Import Reals Lra Lia Psatz Bool.
From Coquelicot Require Import Coquelicot.
From Coq Require Import List.
From Verif Require Import Xf Py Xf_facts Py_facts Calc Spec Utils_model Trap_facts Np Np_facts.
Import ListNotations.
Local Open Scope R_scope.

Definition clamp (a b x : R) : R := Rmax a (Rmin b x).
Lemma clamp_id a b x : a <= x <= b -> clamp a b x = x.
Proof. intros H. unfold clamp. rewrite Rmin_right, Rmax_right; lra. Qed.
Lemma clamp_in a b x : a <= b -> a <= clamp a b x <= b.
Proof. intros H. unfold clamp. split; [apply Rmax_l|]. apply Rmax_lub; [auto|apply Rmin_l]. Qed.
Lemma clamp_lip a b x y : Rabs (clamp a b x - clamp a b y) <= Rabs (x - y).
Proof.
  unfold clamp, Rmax, Rmin. repeat destruct (Rle_dec _ _); unfold Rabs; repeat destruct (Rcase_abs _); lra.
Qed.
Lemma clamp_continuous (f : R -> R) a b : a <= b -> (forall x, a <= x <= b -> continuous f x) -> forall x : R, continuous (fun x : R => f (clamp a b x)) x.
Proof.
  intros H C x. apply (continuous_comp (clamp a b) f).
  - apply filterlim_locally. intros eps. exists eps. intros y Hy.
    unfold ball in *; simpl in *; unfold AbsRing_ball, abs, minus, plus, opp in *; simpl in *.
    eapply Rle_lt_trans; [|exact Hy]. apply (clamp_lip a b y x).
  - apply C, clamp_in; auto.
Qed.

(** A function that starts at 0 with non-negative slope is non-negative. *)
Lemma grow_nonneg (g g' : R -> R) h : 0 <= h -> (forall t, continuous g t) -> (forall t, 0 < t < h -> is_derive g t (g' t)) ->
  (forall t, 0 < t < h -> 0 <= g' t) -> g 0 = 0 -> 0 <= g h.
Proof.
  intros Hh C D P Z. destruct Hh as [Hh|<-]; [|lra].
  set (dg := fun t => if Rlt_dec 0 t then if Rlt_dec t h then g' t else 0 else 0).
  destruct (MVT_gen g 0 h dg) as (c & Hc & E).
  - rewrite Rmin_left, Rmax_right by lra. intros t Ht. unfold dg. destruct (Rlt_dec 0 t); [|lra]. destruct (Rlt_dec t h); [|lra]. apply D; lra.
  - intros t Ht. apply continuity_pt_filterlim. apply C.
  - assert (0 <= dg c). { unfold dg. destruct (Rlt_dec 0 c); [|lra]. destruct (Rlt_dec c h); [|lra]. apply P; lra. }
    rewrite Z in E. nra.
Qed.

Section cell.
  Variables (f f1 f2 : R -> R) (a b M : R).
  Hypothesis ab : a <= b.
  Hypothesis D1 : forall x, a <= x <= b -> is_derive f x (f1 x).
  Hypothesis D2 : forall x, a <= x <= b -> is_derive f1 x (f2 x).
  Hypothesis B : forall x, a <= x <= b -> Rabs (f2 x) <= M.

  Let g x := f (clamp a b x).
  Let g1 x := f1 (clamp a b x).
  Lemma cell_cg x : continuous g x.
  Proof. apply clamp_continuous; auto. intros y Hy. apply (ex_derive_continuous (V := R_NormedModule)). exists (f1 y). auto. Qed.
  Lemma cell_cg1 x : continuous g1 x.
  Proof. apply clamp_continuous; auto. intros y Hy. apply (ex_derive_continuous (V := R_NormedModule)). exists (f2 y). auto. Qed.
  Lemma clamp_near x : a < x < b -> locally x (fun y => clamp a b y = y).
  Proof.
    intros Hx. assert (P : 0 < Rmin (x - a) (b - x)) by (apply Rmin_pos; lra). exists (mkposreal _ P). intros y Hy.
    unfold ball in Hy; simpl in Hy; unfold AbsRing_ball, abs, minus, plus, opp in Hy; simpl in Hy.
    apply clamp_id. assert (M1 := Rmin_l (x - a) (b - x)). assert (M2 := Rmin_r (x - a) (b - x)). apply Rabs_lt_between in Hy. lra.
  Qed.
  Lemma cell_dg x : a < x < b -> is_derive g x (f1 x).
  Proof.
    intros Hx. apply (is_derive_ext_loc f); [|apply D1; lra].
    eapply filter_imp; [|exact (clamp_near x Hx)]. intros y Hy. unfold g. now rewrite Hy.
  Qed.
  Lemma cell_dg1 x : a < x < b -> is_derive g1 x (f2 x).
  Proof.
    intros Hx. apply (is_derive_ext_loc f1); [|apply D2; lra].
    eapply filter_imp; [|exact (clamp_near x Hx)]. intros y Hy. unfold g1. now rewrite Hy.
  Qed.
  Lemma cell_int u v : ex_RInt g u v.
  Proof. apply (ex_RInt_continuous (V := R_CompleteNormedModule)). intros; apply cell_cg. Qed.

  Let E t := RInt g a (a + t) - t / 2 * (g a + g (a + t)).
  Let G t := 1/2 * (g (a + t) - g a) - t / 2 * g1 (a + t).

  Lemma cont_shift (k : R -> R) t : (forall x, continuous k x) -> continuous (fun t => k (a + t)) t.
  Proof.
    intros C. apply (continuous_comp (fun t => a + t) k); [|apply C].
    apply (continuous_plus (V := R_NormedModule)); [apply continuous_const|apply continuous_id].
  Qed.
  Lemma cell_RInt_d x : is_derive (fun x => RInt g a x) x (g x).
  Proof. apply (is_derive_RInt g (fun x => RInt g a x) a). - exists (mkposreal 1 Rlt_0_1). intros y _. apply (RInt_correct (V := R_CompleteNormedModule)), cell_int. - apply cell_cg. Qed.
  Lemma half_d t : is_derive (fun t => t / 2) t (/2).
  Proof. auto_derive; [auto|field]. Qed.
  Lemma shift_d t : is_derive (fun t => a + t) t 1.
  Proof. auto_derive; [auto|ring]. Qed.
  Lemma E_d t : 0 < t < b - a -> is_derive E t (G t).
  Proof.
    intros Ht. unfold E, G.
    evar_last.
    - apply (is_derive_minus (V := R_NormedModule)).
      + apply (is_derive_comp (fun x => RInt g a x) (fun t => a + t)); [apply cell_RInt_d|].
        apply shift_d.
      + apply (is_derive_mult (fun t => t / 2) (fun t => g a + g (a + t))).
        * apply half_d.
        * apply (is_derive_plus (V := R_NormedModule)); [apply is_derive_const|].
          apply (is_derive_comp g (fun t => a + t)); [apply cell_dg; lra|].
          apply shift_d.
        * intros; apply Rmult_comm.
    - unfold minus, plus, opp, scal, zero, one, mult; simpl. unfold mult; simpl. assert (X : g1 (a + t) = f1 (a + t)) by (unfold g1; rewrite clamp_id; [auto|lra]). rewrite X.
      match goal with |- ?a = ?b => change (a = b :> R) end. field.
  Qed.
  Lemma G_d t : 0 < t < b - a -> is_derive G t (- (t / 2) * f2 (a + t)).
  Proof.
    intros Ht. unfold G.
    evar_last.
    - apply (is_derive_minus (V := R_NormedModule)).
      + apply (is_derive_scal (fun t => g (a + t) - g a) t (1/2)).
        apply (is_derive_minus (V := R_NormedModule)); [|apply is_derive_const].
          apply (is_derive_comp g (fun t => a + t)); [apply cell_dg; lra|].
          apply shift_d.
      + apply (is_derive_mult (fun t => t / 2) (fun t => g1 (a + t))).
        * apply half_d.
        * apply (is_derive_comp g1 (fun t => a + t)); [apply cell_dg1; lra|].
          apply shift_d.
        * intros; apply Rmult_comm.
    - unfold minus, plus, opp, scal, zero, one, mult; simpl. unfold mult; simpl. assert (X : g1 (a + t) = f1 (a + t)) by (unfold g1; rewrite clamp_id; [auto|lra]). rewrite X.
      match goal with |- ?a = ?b => change (a = b :> R) end. field.
  Qed.
  Lemma half_cont t : continuous (fun t => t / 2) t.
  Proof. apply (ex_derive_continuous (V := R_NormedModule)). eexists; apply half_d. Qed.
  Lemma G_c t : continuous G t.
  Proof.
    unfold G. apply (continuous_minus (V := R_NormedModule)).
    - apply (continuous_scal_r (K := R_AbsRing) (V := R_NormedModule) (1/2) (fun t => g (a + t) - g a)).
      apply (continuous_minus (V := R_NormedModule)); [apply cont_shift, cell_cg|apply continuous_const].
    - apply (continuous_mult (fun t => t / 2)); [apply half_cont|apply cont_shift, cell_cg1].
  Qed.
  Lemma E_c t : continuous E t.
  Proof.
    unfold E. apply (continuous_minus (V := R_NormedModule)).
    - apply (cont_shift (fun x => RInt g a x)). intros x. apply (ex_derive_continuous (V := R_NormedModule)). eexists; apply cell_RInt_d.
    - apply (continuous_mult (fun t => t / 2)); [apply half_cont|].
      apply (continuous_plus (V := R_NormedModule)); [apply continuous_const|apply cont_shift, cell_cg].
  Qed.
  Lemma pow_d (c : R) (n : nat) t : is_derive (fun t => c * t ^ n) t (c * (INR n * t ^ pred n)).
  Proof.
    auto_derive; auto. destruct n; simpl; ring.
  Qed.
  Lemma pow_c (c : R) (n : nat) t : continuous (fun t => c * t ^ n) t.
  Proof. apply (ex_derive_continuous (V := R_NormedModule)). eexists; apply pow_d. Qed.

  Lemma G_bound t : 0 <= t <= b - a -> Rabs (G t) <= M / 4 * t ^ 2.
  Proof.
    intros Ht. assert (G0 : G 0 = 0) by (unfold G; rewrite Rplus_0_r; field).
    assert (U : forall s, s = 1 \/ s = -1 -> 0 <= M / 4 * t ^ 2 + s * G t).
    { intros s Hs. apply (grow_nonneg (fun t => M / 4 * t ^ 2 + s * G t) (fun t => M / 4 * (INR 2 * t ^ 1) + s * (- (t / 2) * f2 (a + t)))).
      - lra.
      - intros u. apply (continuous_plus (V := R_NormedModule)); [apply pow_c|]. apply (continuous_scal_r (K := R_AbsRing) (V := R_NormedModule) s G). apply G_c.
      - intros u Hu. apply (is_derive_plus (V := R_NormedModule)); [apply (pow_d (M/4) 2)|]. apply (is_derive_scal G u s). apply G_d; lra.
      - intros u Hu. simpl INR. assert (Bu := B (a + u)). destruct (Rabs_le_between (f2 (a + u)) M) as [X _]. specialize (X ltac:(apply Bu; lra)). destruct Hs as [-> | ->]; nra.
      - rewrite G0. ring. }
    apply Rabs_le_between. assert (U1 := U 1 (or_introl eq_refl)). assert (U2 := U (-1) (or_intror eq_refl)). lra.
  Qed.
  Lemma E_bound : Rabs (E (b - a)) <= M / 12 * (b - a) ^ 3.
  Proof.
    assert (E0 : E 0 = 0). { unfold E. rewrite Rplus_0_r, RInt_point. unfold zero; simpl. field. }
    assert (U : forall s, s = 1 \/ s = -1 -> 0 <= M / 12 * (b - a) ^ 3 + s * E (b - a)).
    { intros s Hs. apply (grow_nonneg (fun t => M / 12 * t ^ 3 + s * E t) (fun t => M / 12 * (INR 3 * t ^ 2) + s * G t)).
      - lra.
      - intros u. apply (continuous_plus (V := R_NormedModule)); [apply pow_c|]. apply (continuous_scal_r (K := R_AbsRing) (V := R_NormedModule) s E). apply E_c.
      - intros u Hu. apply (is_derive_plus (V := R_NormedModule)); [apply (pow_d (M/12) 3)|]. apply (is_derive_scal E u s). apply E_d; lra.
      - intros u Hu. replace (INR 3) with 3 by (simpl; ring). assert (Bu := G_bound u ltac:(lra)). apply Rabs_le_between in Bu. destruct Hs as [-> | ->]; lra.
      - rewrite E0. ring. }
    apply Rabs_le_between. assert (U1 := U 1 (or_introl eq_refl)). assert (U2 := U (-1) (or_intror eq_refl)). lra.
  Qed.

  Lemma cell_ex : ex_RInt f a b.
  Proof.
    apply (ex_RInt_ext g); [|apply cell_int]. rewrite Rmin_left, Rmax_right by auto. intros x Hx. unfold g. rewrite clamp_id; [auto|lra].
  Qed.
  Lemma cell_error : Rabs (RInt f a b - (b - a) * (f b + f a) / 2) <= M / 12 * (b - a) ^ 3.
  Proof.
    assert (H := E_bound). unfold E in H. replace (a + (b - a)) with b in H by ring.
    assert (Ga : g a = f a) by (unfold g; rewrite clamp_id; [auto|lra]). assert (Gb : g b = f b) by (unfold g; rewrite clamp_id; [auto|lra]).
    rewrite Ga, Gb in H. rewrite (RInt_ext g f) in H.
    - replace (RInt f a b - (b - a) * (f b + f a) / 2) with (RInt f a b - (b - a) / 2 * (f a + f b)) by field. exact H.
    - rewrite Rmin_left, Rmax_right by auto. intros x Hx. unfold g. rewrite clamp_id; [auto|lra].
  Qed.
End cell.

(** Steps of at most [h]. *)
Fixpoint steps_le (h : R) (x : list R) : Prop :=
  match x with x0 :: ((x1 :: _) as x') => x0 <= x1 <= x0 + h /\ steps_le h x' | _ => True end.

Lemma steps_last h x : forall x0, steps_le h (x0 :: x) -> x0 <= last (x0 :: x) 0.
Proof.
  induction x as [|x1 x IH]; intros x0 H; [simpl; lra|].
  destruct H as [H H']. specialize (IH x1 H'). change (last (x0 :: x1 :: x) 0) with (last (x1 :: x) 0). lra.
Qed.

Lemma trap_error (f f1 f2 : R -> R) M h x : 0 <= h -> forall x0, steps_le h (x0 :: x) ->
  (forall t, x0 <= t <= last (x0 :: x) 0 -> is_derive f t (f1 t) /\ is_derive f1 t (f2 t) /\ Rabs (f2 t) <= M) ->
  ex_RInt f x0 (last (x0 :: x) 0) /\
  Rabs (RInt f x0 (last (x0 :: x) 0) - Rtrap (map f (x0 :: x)) (x0 :: x)) <= M / 12 * h ^ 2 * (last (x0 :: x) 0 - x0).
Proof.
  intros Hh. induction x as [|x1 x IH]; intros x0 S D.
  - simpl last. split; [apply ex_RInt_point|]. rewrite RInt_point. simpl Rtrap. unfold zero; simpl. rewrite !Rminus_eq_0, Rabs_R0. lra.
  - destruct S as [S1 S2]. assert (L := steps_last h x x1 S2). change (last (x0 :: x1 :: x) 0) with (last (x1 :: x) 0) in *. set (e := last (x1 :: x) 0) in *.
    destruct (IH x1 S2) as [I1 I2]; [intros t Ht; fold e in Ht; apply D; lra|]. fold e in I1, I2.
    assert (M0 : 0 <= M). { destruct (D x0 ltac:(lra)) as (_ & _ & Y). assert (Z := Rabs_pos (f2 x0)). lra. }
    assert (C1 : ex_RInt f x0 x1) by (apply (cell_ex f f1 x0 x1); [lra|intros t Ht; apply D; lra]).
    assert (C2 : Rabs (RInt f x0 x1 - (x1 - x0) * (f x1 + f x0) / 2) <= M / 12 * (x1 - x0) ^ 3) by (apply (cell_error f f1 f2 x0 x1 M); [lra|intros t Ht; apply D; lra..]).
    split; [apply (ex_RInt_Chasles f x0 x1 e); auto|].
    rewrite <- (RInt_Chasles f x0 x1 e) by auto. unfold plus; simpl plus. change (map f (x0 :: x1 :: x)) with (f x0 :: f x1 :: map f x). rewrite Rtrap_cons.
    change (f x1 :: map f x) with (map f (x1 :: x)).
    assert (K : M / 12 * (x1 - x0) ^ 3 <= M / 12 * h ^ 2 * (x1 - x0)). { rewrite Rmult_assoc. apply Rmult_le_compat_l; [lra|]. replace ((x1 - x0) ^ 3) with ((x1 - x0) ^ 2 * (x1 - x0)) by ring. apply Rmult_le_compat_r; [lra|apply pow_incr; lra]. }
    change (Rabs (RInt f x0 x1 + RInt f x1 e - ((x1 - x0) * (f x1 + f x0) / 2 + Rtrap (map f (x1 :: x)) (x1 :: x))) <= M / 12 * h ^ 2 * (e - x0)).
    replace (M / 12 * h ^ 2 * (e - x0)) with (M / 12 * h ^ 2 * (e - x1) + M / 12 * h ^ 2 * (x1 - x0)) by ring.
    apply Rabs_le_between in C2. apply Rabs_le_between in I2. apply Rabs_le_between. lra.
Qed.

Lemma steps_seq a d : 0 <= d -> forall n i, steps_le d (map (fun k => a + INR k * d) (seq i n)).
Proof.
  intros Hd n; induction n as [|n IH]; intros i; [exact I|]. destruct n as [|n]; [exact I|].
  specialize (IH (Datatypes.S i)). simpl map in *. simpl seq in *. split; [|exact IH].
  assert (X : INR (Datatypes.S i) = INR i + 1) by apply S_INR. simpl in X. rewrite X. lra.
Qed.
