(** Proofs of the property theorems stated in [Props_conv]. *)
From Coq Require Import Reals Lra Lia Psatz String Bool.
From Coquelicot Require Import Coquelicot.
From Coq Require Import List.
From Verif Require Import Xf Py St Xf_facts Py_facts Calc Special Spec Utils_model Beta_facts Beta_moments
  Conversions_model SpecConv Conversions_facts.
Import ListNotations.
Local Open Scope R_scope.

Lemma m2a_inverse a b m : 0 < a -> 0 < b -> 0 < m ->
  m2a_alpha (bmean a b m) (bvar a b m) m = a /\ m2a_beta (bmean a b m) (bvar a b m) m = b.
Proof.
  intros. unfold m2a_alpha, m2a_beta, bmean, bvar.
  split; field; repeat split; try lra; nra.
Qed.
Lemma a2m_inverse mu var am : am <> 0 -> var <> 0 -> mu <> 0 -> am <> mu -> mu * (am - mu) - var <> 0 ->
  let a := m2a_alpha mu var am in let b := m2a_beta mu var am in
  a + b <> 0 /\ a + b + 1 <> 0 /\ bmean a b am = mu /\ bvar a b am = var.
Proof.
  intros Ha Hv Hm Hd Hf a b.
  assert (Sum : a + b = (mu * (am - mu) - var) / var).
  { unfold a, b, m2a_alpha, m2a_beta. field. auto. }
  assert (S1 : a + b + 1 = mu * (am - mu) / var) by (rewrite Sum; field; auto).
  assert (Ea : a = mu / am * (a + b)).
  { rewrite Sum. unfold a, m2a_alpha. field. auto. }
  assert (Eb : b = (am - mu) / am * (a + b)).
  { rewrite Sum. unfold b, m2a_beta. field. auto. }
  assert (N1 : a + b <> 0).
  { rewrite Sum. apply Rmult_integral_contrapositive; split; auto. now apply Rinv_neq_0_compat. }
  assert (N2 : a + b + 1 <> 0).
  { rewrite S1. apply Rmult_integral_contrapositive; split; [apply Rmult_integral_contrapositive; split; auto; lra|].
    now apply Rinv_neq_0_compat. }
  assert (M : bmean a b am = mu).
  { unfold bmean. rewrite Ea at 1. field. auto. }
  repeat split; auto.
  unfold bvar. rewrite S1. rewrite Ea at 1. rewrite Eb at 2. field. repeat split; auto. lra.
Qed.

Lemma feasible_iff mu var am : 0 < var -> 0 < am ->
  (0 < m2a_alpha mu var am /\ 0 < m2a_beta mu var am) <-> (0 < mu < am /\ var < mu * (am - mu)).
Proof.
  intros Hv Ha. set (T := (mu * (am - mu) - var) / var).
  assert (Ea : m2a_alpha mu var am = mu / am * T) by (unfold m2a_alpha, T; field; lra).
  assert (Eb : m2a_beta mu var am = (am - mu) / am * T) by (unfold m2a_beta, T; field; lra).
  rewrite Ea, Eb. set (u := mu / am). set (w := (am - mu) / am).
  assert (U : u * am = mu) by (unfold u; field; lra). assert (W : w * am = am - mu) by (unfold w; field; lra).
  assert (UW : u + w = 1) by (unfold u, w; field; lra).
  assert (TV : T * var = mu * (am - mu) - var) by (unfold T; field; lra).
  split.
  - intros [P1 P2].
    assert (PT : 0 < T). { replace T with (u * T + w * T) by (rewrite <- Rmult_plus_distr_r, UW; ring). lra. }
    assert (0 < u) by (apply (Rmult_lt_reg_r T); lra). assert (0 < w) by (apply (Rmult_lt_reg_r T); lra).
    assert (0 < u * am) by (apply Rmult_lt_0_compat; auto). assert (0 < w * am) by (apply Rmult_lt_0_compat; auto).
    assert (0 < T * var) by (apply Rmult_lt_0_compat; auto). lra.
  - intros [P1 P2].
    assert (0 < u) by (apply Rdiv_lt_0_compat; lra). assert (0 < w) by (apply Rdiv_lt_0_compat; lra).
    assert (0 < T) by (apply Rdiv_lt_0_compat; lra).
    split; apply Rmult_lt_0_compat; auto.
Qed.

(** Elementwise arithmetic on columns of a table. *)
Definition col {T} (f : T -> R) (l : list T) : nd := Ar (map (fun t => Fin (f t)) l).
Lemma bcast_col {T} (op : xf -> xf -> xf) (f g h : T -> R) l :
  (forall t, In t l -> op (Fin (f t)) (Fin (g t)) = Fin (h t)) ->
  bcast op (map (fun t => Fin (f t)) l) (map (fun t => Fin (g t)) l) = Ok (map (fun t => Fin (h t)) l).
Proof.
  intros H. unfold bcast. rewrite !map_length, Nat.eqb_refl. f_equal.
  induction l as [|t l IH]; simpl; auto. rewrite (H t) by (simpl; auto). f_equal. apply IH. intros; apply H; simpl; auto.
Qed.
Lemma binop_col {T} op (f g h : T -> R) l : (forall t, In t l -> op (Fin (f t)) (Fin (g t)) = Fin (h t)) ->
  binop op (col f l) (col g l) = Ok (col h l).
Proof. intros H. unfold binop, col. rewrite (bcast_col op f g h) by auto. reflexivity. Qed.
Lemma ndiv_col {T} (f g : T -> R) l : (forall t, In t l -> g t <> 0) ->
  ndiv (col f l) (col g l) = Ok (col (fun t => f t / g t) l).
Proof. intros H. unfold ndiv. apply (binop_col fdiv). intros t Ht. apply fdiv_fin; auto. Qed.
Lemma binop_scol {T} op x p (f h : T -> R) l : (forall t, In t l -> op (Fin x) (Fin (f t)) = Fin (h t)) ->
  binop op (Sc (Fin x) p) (col f l) = Ok (col h l).
Proof. intros H. unfold binop, col. do 2 f_equal. rewrite map_map. apply map_ext_in. auto. Qed.
Lemma binop_cols {T} op x p (f h : T -> R) l : (forall t, In t l -> op (Fin (f t)) (Fin x) = Fin (h t)) ->
  binop op (col f l) (Sc (Fin x) p) = Ok (col h l).
Proof. intros H. unfold binop, col. do 2 f_equal. rewrite map_map. apply map_ext_in. auto. Qed.

Lemma a2m_col {T} (a b m : T -> R) l : (forall t, In t l -> 0 < a t /\ 0 < b t) ->
  alpha_beta_max_to_mu_var_max (col a l) (col b l) (col m l) =
  Ok (col (fun t => bmean (a t) (b t) (m t)) l, col (fun t => bvar (a t) (b t) (m t)) l, col m l).
Proof.
  intros H. unfold alpha_beta_max_to_mu_var_max.
  rewrite (binop_col fadd a b (fun t => a t + b t)) by (intros; apply fadd_fin). unfold bind at 1.
  rewrite ndiv_col by (intros t Ht; destruct (H t Ht); lra). unfold bind at 1.
  rewrite (binop_col fmul _ m (fun t => bmean (a t) (b t) (m t))) by (intros; apply fmul_fin). unfold bind at 1.
  rewrite (binop_col fmul a b (fun t => a t * b t)) by (intros; apply fmul_fin). unfold bind at 1.
  rewrite (binop_col fmul (fun t => a t + b t) (fun t => a t + b t) (fun t => (a t + b t) * (a t + b t))) by (intros; apply fmul_fin).
  unfold bind at 1.
  rewrite (binop_cols fadd 1 true (fun t => a t + b t) (fun t => a t + b t + 1)) by (intros; apply fadd_fin). unfold bind at 1.
  rewrite (binop_col fmul _ _ (fun t => (a t + b t) * (a t + b t) * (a t + b t + 1))) by (intros; apply fmul_fin).
  unfold bind at 1.
  rewrite ndiv_col.
  2:{ intros t Ht; destruct (H t Ht). apply Rgt_not_eq. apply Rmult_lt_0_compat; [apply Rmult_lt_0_compat|]; lra. }
  unfold bind at 1.
  rewrite (binop_col fmul m m (fun t => m t * m t)) by (intros; apply fmul_fin). unfold bind at 1.
  rewrite (binop_col fmul _ _ (fun t => bvar (a t) (b t) (m t))) by (intros; apply fmul_fin). reflexivity.
Qed.

Lemma m2a_col {T} (mu var am : T -> R) l s pm pv pa :
  (forall t, In t l -> am t <> 0 /\ var t <> 0) ->
  pm <> pv -> pm <> pa ->
  (pm < List.length (arrays s))%nat -> (pv < List.length (arrays s))%nat ->
  Ar (nth pm (arrays s) []) = col mu l -> Ar (nth pv (arrays s) []) = col var l -> Ar (nth pa (arrays s) []) = col am l ->
  exists s', mu_var_max_to_alpha_beta_max (VRef pm) (VRef pv) (VRef pa) s =
   (s', Ok (col (fun t => m2a_alpha (mu t) (var t) (am t)) l, col (fun t => m2a_beta (mu t) (var t) (am t)) l)) /\
   Ar (nth pm (arrays s') []) = col (fun t => mu t / am t) l /\
   Ar (nth pv (arrays s') []) = col (fun t => var t / (am t * am t)) l.
Proof.
  intros H N1 N2 Lm Lv Em Ev Ea.
  assert (Ha2 : forall t, In t l -> am t * am t <> 0).
  { intros t Ht. destruct (H t Ht). apply Rmult_integral_contrapositive; auto. }
  assert (Hv : forall t, In t l -> var t / (am t * am t) <> 0).
  { intros t Ht. destruct (H t Ht). apply Rmult_integral_contrapositive; split; auto. apply Rinv_neq_0_compat; auto. }
  unfold mu_var_max_to_alpha_beta_max.
  unfold sbind at 1. unfold read at 1. rewrite Ea.
  unfold sbind at 1. unfold idiv at 1. unfold sbind at 1. unfold read at 1. rewrite Em.
  unfold sbind at 1. unfold slift at 1. rewrite ndiv_col by (intros t Ht; apply (H t Ht)).
  unfold col at 1. unfold sbind at 1, sget at 1.
  assert (LEm : List.length (nth pm (arrays s) []) = List.length l).
  { injection Em as ->. now rewrite map_length. }
  assert (LEv : List.length (nth pv (arrays s) []) = List.length l).
  { injection Ev as ->. now rewrite map_length. }
  rewrite map_length, LEm, Nat.eqb_refl. unfold sbind at 1, sput at 1, sret at 1.
  set (s1 := mkStore _ _).
  assert (Ea1 : Ar (nth pa (arrays s1) []) = col am l) by (simpl; rewrite nth_set_nth_other by auto; auto).
  assert (Ev1 : Ar (nth pv (arrays s1) []) = col var l) by (simpl; rewrite nth_set_nth_other by auto; auto).
  assert (Em1 : Ar (nth pm (arrays s1) []) = col (fun t => mu t / am t) l) by (simpl; rewrite nth_set_nth_same by auto; auto).
  unfold sbind at 1. unfold read at 1. rewrite Ea1.
  unfold sbind at 1. unfold slift at 1. rewrite (binop_col fmul am am (fun t => am t * am t)) by (intros; apply fmul_fin).
  unfold sbind at 1. unfold idiv at 1. unfold sbind at 1. unfold read at 1. rewrite Ev1.
  unfold sbind at 1. unfold slift at 1. rewrite ndiv_col by auto.
  unfold col at 1. unfold sbind at 1, sget at 1.
  assert (LEv1 : List.length (nth pv (arrays s1) []) = List.length l) by (simpl; rewrite nth_set_nth_other by auto; auto).
  rewrite map_length, LEv1, Nat.eqb_refl. unfold sbind at 1, sput at 1, sret at 1.
  set (s2 := mkStore _ _).
  assert (Em2 : Ar (nth pm (arrays s2) []) = col (fun t => mu t / am t) l).
  { simpl. rewrite nth_set_nth_other by auto. exact Em1. }
  assert (Ev2 : Ar (nth pv (arrays s2) []) = col (fun t => var t / (am t * am t)) l).
  { simpl. rewrite nth_set_nth_same by (simpl; rewrite set_nth_length; auto). auto. }
  unfold sbind at 1. unfold lread at 1. rewrite Em2. unfold sbind at 1. unfold lread at 1. rewrite Ev2.
  cbv zeta. unfold sbind at 1, slift at 1.
  set (m := fun t => mu t / am t) in *. set (v := fun t => var t / (am t * am t)) in *.
  rewrite (binop_col fmul m m (fun t => m t * m t)) by (intros; apply fmul_fin). unfold bind at 1.
  rewrite (binop_scol fsub 1 true m (fun t => 1 - m t)) by (intros; apply fsub_fin). unfold bind at 1.
  rewrite (binop_col fmul _ _ (fun t => m t * m t * (1 - m t))) by (intros; apply fmul_fin). unfold bind at 1.
  rewrite (binop_col fmul m v (fun t => m t * v t)) by (intros; apply fmul_fin). unfold bind at 1.
  rewrite (binop_col fsub _ _ (fun t => m t * m t * (1 - m t) - m t * v t)) by (intros; apply fsub_fin). unfold bind at 1.
  rewrite ndiv_col by auto. unfold sbind at 1, slift at 1. unfold bind at 1.
  rewrite (binop_col fmul _ _ (fun t => (1 - m t) * (1 - m t))) by (intros; apply fmul_fin). unfold bind at 1.
  rewrite (binop_col fmul _ _ (fun t => m t * ((1 - m t) * (1 - m t)))) by (intros; apply fmul_fin). unfold bind at 1.
  rewrite (binop_col fmul _ _ (fun t => (1 - m t) * v t)) by (intros; apply fmul_fin). unfold bind at 1.
  rewrite (binop_col fsub _ _ (fun t => m t * ((1 - m t) * (1 - m t)) - (1 - m t) * v t)) by (intros; apply fsub_fin). unfold bind at 1.
  rewrite ndiv_col by auto. unfold sret.
  exists s2. split; [reflexivity|]. auto.
Qed.

Lemma C15_round_trip_alpha_beta_pf :
  forall a b m pa pb pm s, 0 < a -> 0 < b -> 0 < m ->
  exists mu var,
    (exists vmu vvar, alpha_beta_max_to_mu_var_max (Sc (Fin a) pa) (Sc (Fin b) pb) (Sc (Fin m) pm)
                      = Ok (vmu, vvar, Sc (Fin m) pm) /\ is_num vmu mu /\ is_num vvar var) /\
    (forall qm qv qa, exists va vb,
       mu_var_max_to_alpha_beta_max (VNum (Fin mu) qm) (VNum (Fin var) qv) (VNum (Fin m) qa) s = (s, Ok (va, vb)) /\
       is_num va a /\ is_num vb b).
Proof.
  intros a b m pa pb pm s Ha Hb Hm. exists (bmean a b m), (bvar a b m). split.
  - destruct (a2m_scalar a b m pa pb pm) as [f1 [f2 E]]; try lra.
    do 2 eexists. split; [exact E|]. split; eexists; reflexivity.
  - intros. assert (Hv : bvar a b m <> 0).
    { unfold bvar. apply Rgt_not_eq. apply Rmult_lt_0_compat; [|nra].
      apply Rdiv_lt_0_compat; [nra|]. repeat apply Rmult_lt_0_compat; lra. }
    destruct (m2a_scalar s (bmean a b m) (bvar a b m) m qm qv qa) as [f1 [f2 E]]; try lra; auto.
    destruct (m2a_inverse a b m Ha Hb Hm) as [E1 E2].
    do 2 eexists. split; [exact E|]. rewrite E1, E2. split; eexists; reflexivity.
Qed.

Lemma C15_round_trip_mu_var_pf :
  forall mu var m qm qv qa s, 0 < mu < m -> 0 < var < mu * (m - mu) ->
  exists a b,
    (exists va vb, mu_var_max_to_alpha_beta_max (VNum (Fin mu) qm) (VNum (Fin var) qv) (VNum (Fin m) qa) s
                   = (s, Ok (va, vb)) /\ is_num va a /\ is_num vb b) /\
    (forall pa pb pm, exists vmu vvar,
       alpha_beta_max_to_mu_var_max (Sc (Fin a) pa) (Sc (Fin b) pb) (Sc (Fin m) pm) = Ok (vmu, vvar, Sc (Fin m) pm) /\
       is_num vmu mu /\ is_num vvar var).
Proof.
  intros mu var m qm qv qa s Hm Hv.
  destruct (a2m_inverse mu var m) as [N1 [N2 [E1 E2]]]; try lra.
  exists (m2a_alpha mu var m), (m2a_beta mu var m). split.
  - destruct (m2a_scalar s mu var m qm qv qa) as [f1 [f2 E]]; try lra.
    do 2 eexists. split; [exact E|]. split; eexists; reflexivity.
  - intros. destruct (a2m_scalar (m2a_alpha mu var m) (m2a_beta mu var m) m pa pb pm N1 N2) as [f1 [f2 E]].
    do 2 eexists. split; [exact E|]. unfold bmean in E1. unfold bvar in E2. rewrite E1, E2. split; eexists; reflexivity.
Qed.

Lemma C15_round_trip_arrays_pf :
  forall (l : list (R * R * R)),
  (forall a b m, In (a, b, m) l -> 0 < a /\ 0 < b /\ 0 < m) ->
  let A := map (fun t => Fin (fst (fst t))) l in
  let B := map (fun t => Fin (snd (fst t))) l in
  let M := map (fun t => Fin (snd t)) l in
  exists MU VAR,
    alpha_beta_max_to_mu_var_max (Ar A) (Ar B) (Ar M) = Ok (Ar MU, Ar VAR, Ar M) /\
    forall s pm pv pa, NoDup [pm; pv; pa] ->
      (pm < List.length (arrays s))%nat -> (pv < List.length (arrays s))%nat ->
      nth pm (arrays s) [] = MU -> nth pv (arrays s) [] = VAR -> nth pa (arrays s) [] = M ->
      exists s', mu_var_max_to_alpha_beta_max (VRef pm) (VRef pv) (VRef pa) s = (s', Ok (Ar A, Ar B)).
Proof.
  intros l H A B M.
  assert (H' : forall t, In t l -> 0 < fst (fst t) /\ 0 < snd (fst t) /\ 0 < snd t).
  { intros [[a b] m] Ht. apply H; auto. }
  set (MU := fun t : R * R * R => bmean (fst (fst t)) (snd (fst t)) (snd t)).
  set (VAR := fun t : R * R * R => bvar (fst (fst t)) (snd (fst t)) (snd t)).
  exists (map (fun t => Fin (MU t)) l), (map (fun t => Fin (VAR t)) l). split.
  - apply (a2m_col (fun t => fst (fst t)) (fun t => snd (fst t)) snd). intros t Ht. destruct (H' t Ht) as [? [? ?]]; auto.
  - intros s pm pv pa ND Lm Lv Em Ev Ea.
    inversion ND as [|? ? N1 ND2]; subst. simpl in N1. 
    destruct (m2a_col MU VAR snd l s pm pv pa) as [s' [E _]]; auto.
    + intros t Ht. destruct (H' t Ht) as [? [? ?]]. split; [lra|].
      unfold VAR, bvar. apply Rgt_not_eq. apply Rmult_lt_0_compat; [|nra].
      apply Rdiv_lt_0_compat; [nra|]. repeat apply Rmult_lt_0_compat; lra.
    + unfold col. now rewrite Em.
    + unfold col. now rewrite Ev.
    + unfold col, M in *. now rewrite Ea.
    + exists s'. rewrite E. do 3 f_equal.
      * unfold col, A. f_equal. apply map_ext_in. intros t Ht. destruct (H' t Ht) as [? [? ?]].
        f_equal. apply m2a_inverse; auto.
      * unfold col, B. f_equal. apply map_ext_in. intros t Ht. destruct (H' t Ht) as [? [? ?]].
        f_equal. apply m2a_inverse; auto.
Qed.

Lemma C16_feasible_region_pf :
  forall mu var m qm qv qa s, 0 < var -> 0 < m ->
  exists va vb a b,
    mu_var_max_to_alpha_beta_max (VNum (Fin mu) qm) (VNum (Fin var) qv) (VNum (Fin m) qa) s = (s, Ok (va, vb)) /\
    is_num va a /\ is_num vb b /\
    ((0 < a /\ 0 < b) <-> (0 < mu < m /\ var < mu * (m - mu))).
Proof.
  intros mu var m qm qv qa s Hv Hm.
  destruct (m2a_scalar s mu var m qm qv qa) as [f1 [f2 E]]; try lra.
  do 4 eexists. split; [exact E|]. split; [eexists; reflexivity|]. split; [eexists; reflexivity|].
  now apply feasible_iff.
Qed.

Lemma C80_mean_and_variance_pf :
  forall bk kw a b m pa pb pm, 0 < a -> 0 < b -> 0 < m ->
  exists mu var (g : R -> R),
    (exists vmu vvar, alpha_beta_max_to_mu_var_max (Sc (Fin a) pa) (Sc (Fin b) pb) (Sc (Fin m) pm)
                      = Ok (vmu, vvar, Sc (Fin m) pm) /\ is_num vmu mu /\ is_num vvar var) /\
    (forall x, 0 < x < m -> returns (beta_dist bk kw (Fin x) (Fin a) (Fin b) (Fin m)) (g x)) /\
    is_RInt_gen (fun x => x * g x) (at_right 0) (at_left m) mu /\
    is_RInt_gen (fun x => (x - mu) * (x - mu) * g x) (at_right 0) (at_left m) var.
Proof.
  intros bk kw a b m pa pb pm Ha Hb Hm. exists (bmean a b m), (bvar a b m), (bpdf a b m).
  split; [|split; [|split]].
  - destruct (a2m_scalar a b m pa pb pm) as [f1 [f2 E]]; try lra.
    do 2 eexists. split; [exact E|]. split; eexists; reflexivity.
  - intros x Hx. red. rewrite beta_dist_ok, beta_dist_body_in by auto. reflexivity.
  - now apply bpdf_mean.
  - now apply bpdf_var.
Qed.

Lemma C80_requested_moments_pf :
  forall bk kw mu var m qm qv qa s, 0 < mu < m -> 0 < var < mu * (m - mu) ->
  exists a b (g : R -> R),
    (exists va vb, mu_var_max_to_alpha_beta_max (VNum (Fin mu) qm) (VNum (Fin var) qv) (VNum (Fin m) qa) s
                   = (s, Ok (va, vb)) /\ is_num va a /\ is_num vb b) /\
    (forall x, 0 < x < m -> returns (beta_dist bk kw (Fin x) (Fin a) (Fin b) (Fin m)) (g x)) /\
    is_RInt_gen g (at_right 0) (at_left m) 1 /\
    is_RInt_gen (fun x => x * g x) (at_right 0) (at_left m) mu /\
    is_RInt_gen (fun x => (x - mu) * (x - mu) * g x) (at_right 0) (at_left m) var.
Proof.
  intros bk kw mu var m qm qv qa s Hm Hv.
  destruct (a2m_inverse mu var m) as [N1 [N2 [E1 E2]]]; try lra.
  assert (Hm0 : 0 < m) by lra.
  destruct (proj2 (feasible_iff mu var m (proj1 Hv) Hm0)) as [Pa Pb]; [lra|].
  exists (m2a_alpha mu var m), (m2a_beta mu var m), (bpdf (m2a_alpha mu var m) (m2a_beta mu var m) m).
  split; [|split; [|split; [|split]]].
  - destruct (m2a_scalar s mu var m qm qv qa) as [f1 [f2 E]]; try lra.
    do 2 eexists. split; [exact E|]. split; eexists; reflexivity.
  - intros x Hx. red. rewrite beta_dist_ok, beta_dist_body_in by auto. reflexivity.
  - now apply bpdf_int.
  - assert (I := bpdf_mean _ _ _ Pa Pb Hm0). now rewrite E1 in I.
  - assert (I := bpdf_var _ _ _ Pa Pb Hm0). now rewrite E1, E2 in I.
Qed.

Lemma selected_plan P suf : selected P suf <-> In suf (plan P).
Proof.
  assert (G : forall suf, given P suf <-> needed P suf = false).
  { intros x. unfold given, usable, needed, key. split.
    - intros [[va [-> Na]] [vb [-> Nb]]]. destruct va, vb; auto; congruence.
    - destruct (dget ("alpha_chi" ++ x) P) as [va|]; [|discriminate].
      destruct (dget ("beta_chi" ++ x) P) as [vb|]; [|destruct va; discriminate].
      intros H. destruct va, vb; try discriminate H; split; eexists; (split; [reflexivity|discriminate]). }
  assert (M : forall suf, mean_and_width P suf <-> has_mu_sigma P suf = true).
  { intros x. unfold mean_and_width, has_key, has_mu_sigma, dmem, key. rewrite andb_true_iff.
    destruct (dget ("mu_chi" ++ x) P), (dget ("sigma_chi" ++ x) P); split; intros [A B];
      try (destruct A as [? A]; discriminate); try (destruct B as [? B]; discriminate); try discriminate; eauto. }
  assert (G' : forall suf, ~ given P suf <-> needed P suf = true).
  { intros x. rewrite G. destruct (needed P x); split; congruence. }
  assert (M' : forall suf, ~ mean_and_width P suf <-> has_mu_sigma P suf = false).
  { intros x. rewrite M. destruct (has_mu_sigma P x); split; congruence. }
  rewrite plan_iff. unfold selected, conv1, avail. rewrite !G', !M', !M. rewrite !andb_true_iff, !orb_false_iff, !negb_false_iff.
  split.
  - intros [[[->| ->] [H1 H2]]|[-> H]]; tauto.
  - intros [[-> H]|[[-> H]|[-> H]]]; tauto.
Qed.
Lemma numeric_scalars P : numeric P -> forall suf, In suf ["_1"; "_2"; ""]%string -> scalars P suf.
Proof.
  intros H suf Hs. unfold scalars, key. repeat split.
  - intros v Hv. apply (proj1 (H suf v Hs) Hv).
  - intros v Hv. apply (proj2 (H suf v Hs)). auto.
  - intros v Hv. apply (proj2 (H suf v Hs)). auto.
Qed.
Lemma in_reported P x : In x (flat_map akeys (plan P)) <->
  exists suf, selected P suf /\ (x = ("alpha_chi" ++ suf)%string \/ x = ("beta_chi" ++ suf)%string).
Proof.
  rewrite in_flat_map. unfold akeys, key. split; intros [suf [H1 H2]]; exists suf; rewrite selected_plan in *; split; auto.
  - destruct H2 as [<-|[<-|[]]]; auto.
  - destruct H2 as [->| ->]; simpl; auto.
Qed.

Lemma C17_only_adds_pf :
  forall params remove s s' c added, (params < List.length (dicts s))%nat ->
  convert_to_beta_parameters params remove s = (s', Ok (c, added)) ->
  let P := nth params (dicts s) [] in
  let C := nth c (dicts s') [] in
  same_dicts s s' /\ c = List.length (dicts s) /\
  (forall k, (exists suf, selected P suf /\ (k = "alpha_chi" ++ suf \/ k = "beta_chi" ++ suf)%string) -> usable k C) /\
  (forall k, ~ (exists suf, selected P suf /\ (k = "alpha_chi" ++ suf \/ k = "beta_chi" ++ suf)%string) -> dget k C = dget k P) /\
  (remove = false -> added = []) /\
  (remove = true -> forall k, In k added <->
     exists suf, selected P suf /\ (k = "alpha_chi" ++ suf \/ k = "beta_chi" ++ suf)%string).
Proof.
  intros params remove s s' c added Hp E P C.
  destruct (convert_ok params remove s s' c added Hp E) as [-> [-> [C' [Hd [H1 [H2 _]]]]]]. fold P in H1, H2.
  assert (EC : C = C') by (unfold C; rewrite Hd; apply nth_app_last).
  rewrite EC. clear EC C. split; [|split; [|split; [|split; [|split]]]].
  - intros d Hl. rewrite Hd. apply app_nth1; auto.
  - reflexivity.
  - intros k Hk. apply H2, in_reported, Hk.
  - intros k Hk. apply H1. now rewrite in_reported.
  - intros ->. reflexivity.
  - intros -> k. apply in_reported.
Qed.

Lemma C18_selected_values_pf :
  forall params remove s s' c added, (params < List.length (dicts s))%nat ->
  convert_to_beta_parameters params remove s = (s', Ok (c, added)) ->
  let P := nth params (dicts s) [] in
  let C := nth c (dicts s') [] in
  forall suf mu var am qm qv qa, selected P suf ->
    dget ("mu_chi" ++ suf)%string P = Some (VNum (Fin mu) qm) ->
    dget ("sigma_chi" ++ suf)%string P = Some (VNum (Fin var) qv) -> var <> 0 ->
    dget ("amax" ++ suf)%string P = Some (VNum (Fin am) qa) -> am <> 0 ->
    holds_num (dget ("alpha_chi" ++ suf)%string C) ((mu * mu * (am - mu) - mu * var) / (am * var)) /\
    holds_num (dget ("beta_chi" ++ suf)%string C) ((mu * ((am - mu) * (am - mu)) - (am - mu) * var) / (am * var)).
Proof.
  intros params remove s s' c added Hp E P C.
  destruct (convert_ok params remove s s' c added Hp E) as [-> [-> [C' [Hd [_ [_ [_ [_ H]]]]]]]]. fold P in H.
  assert (EC : C = C') by (unfold C; rewrite Hd; apply nth_app_last).
  rewrite EC. clear EC C. intros suf mu var am qm qv qa Hs G1 G2 Hv G3 Ha.
  apply selected_plan in Hs.
  destruct (H suf Hs mu var am qm qv qa G1 G2 Hv G3 Ha) as [f1 [f2 [W1 W2]]]. unfold key in W1, W2.
  split; red.
  - exists f1. rewrite W1. do 3 f_equal. unfold m2a_alpha. field. auto.
  - exists f2. rewrite W2. do 3 f_equal. unfold m2a_beta. field. auto.
Qed.

Lemma C18_fails_iff_amax_missing_pf :
  forall params remove s, (params < List.length (dicts s))%nat ->
  let P := nth params (dicts s) [] in
  numeric P ->
  ((exists suf, selected P suf /\ ~ has_key ("amax" ++ suf) P) <->
   (exists s' e, convert_to_beta_parameters params remove s = (s', Err e))) /\
  (forall s' e, convert_to_beta_parameters params remove s = (s', Err e) ->
     exists suf, selected P suf /\ ~ has_key ("amax" ++ suf) P /\ e = KeyError ("amax" ++ suf)%string).
Proof.
  intros params remove s Hp P HN.
  assert (K : forall s' e, convert_to_beta_parameters params remove s = (s', Err e) ->
     exists suf, selected P suf /\ ~ has_key ("amax" ++ suf) P /\ e = KeyError ("amax" ++ suf)%string).
  { intros s' e E. 
    destruct (convert_err_num params remove s s' e Hp (numeric_scalars P HN) E) as [suf [H1 [H2 H3]]].
    exists suf. rewrite selected_plan. repeat split; auto. intros [v Hv]. unfold key in H2. fold P in H2. congruence. }
  split; auto. split.
  - intros [suf [Hs Hk]]. apply (convert_missing params remove s suf Hp).
    + now apply selected_plan.
    + unfold key. fold P. destruct (dget ("amax" ++ suf) P) eqn:Eg; auto. exfalso; apply Hk; eexists; eauto.
  - intros [s' [e E]]. destruct (K s' e E) as [suf [H1 [H2 _]]]. eauto.
Qed.

Lemma C19_idempotent_pf :
  forall params remove remove2 s s' c added, (params < List.length (dicts s))%nat ->
  convert_to_beta_parameters params remove s = (s', Ok (c, added)) ->
  exists s2 c2,
    convert_to_beta_parameters c remove2 s' = (s2, Ok (c2, [])) /\
    nth c2 (dicts s2) [] = nth c (dicts s') [] /\ same_dicts s' s2 /\ arrays s2 = arrays s'.
Proof.
  intros params remove remove2 s s' c added Hp E.
  destruct (convert_ok params remove s s' c added Hp E) as [-> [_ [C' [Hd [H1 [H2 _]]]]]].
  assert (HC : nth (List.length (dicts s)) (dicts s') [] = C') by (rewrite Hd; apply nth_app_last).
  assert (Hl : (List.length (dicts s) < List.length (dicts s'))%nat) by (rewrite Hd, app_length; simpl; lia).
  assert (Pl := plan_after _ _ H1 H2). rewrite <- HC in Pl.
  rewrite (conv_noop _ remove2 s' Hl Pl). rewrite HC in *.
  do 2 eexists. split; [reflexivity|]. simpl. split; [apply nth_app_last|]. split; auto.
  intros d Hdl. simpl. apply app_nth1; auto.
Qed.

Lemma C20_callers_arrays_partial_pf :
  forall params remove s s' c added, (params < List.length (dicts s))%nat ->
  convert_to_beta_parameters params remove s = (s', Ok (c, added)) ->
  let P := nth params (dicts s) [] in
  (forall suf p, selected P suf -> dget ("mu_chi" ++ suf) P <> Some (VRef p) /\ dget ("sigma_chi" ++ suf) P <> Some (VRef p)) ->
  same_arrays s s'.
Proof.
  intros params remove s s' c added Hp E P HN.
  destruct (convert_ok params remove s s' c added Hp E) as [_ [_ [C' [_ [_ [_ [H _]]]]]]]. fold P in H.
  destruct H as [ext Hx].
  { intros suf Hs p. apply (HN suf p). now apply selected_plan. }
  intros p Hpl. rewrite Hx. apply app_nth1; auto.
Qed.

Lemma C20_arrays_mutated_refuted_pf :
  forall remove mu var am py, mu <> 0 -> var <> 0 -> am <> 0 -> am <> 1 ->
  let P := [("mu_chi", VRef 0); ("sigma_chi", VRef 1); ("amax", VNum (Fin am) py)]%string in
  let s := mkStore [[Fin mu]; [Fin var]] [P] in
  exists s' c added,
    convert_to_beta_parameters 0 remove s = (s', Ok (c, added)) /\
    nth 0 (arrays s') [] = [Fin (mu / am)] /\ nth 1 (arrays s') [] = [Fin (var / (am * am))] /\
    ~ same_arrays s s'.
Proof.
  intros remove mu var am py Hm Hv Ha Ha1 P s.
  assert (Ha2 : am * am <> 0) by (apply Rmult_integral_contrapositive; auto).
  assert (Hv2 : var / (am * am) <> 0).
  { apply Rmult_integral_contrapositive; split; auto. now apply Rinv_neq_0_compat. }
  unfold convert_to_beta_parameters. cbn -[fdiv fmul fsub fadd Rdiv Rmult Rminus].
  rewrite (fmul_fin am am). rewrite (fdiv_fin mu am), (fdiv_fin var (am * am)) by auto.
  do 3 eexists. split; [reflexivity|]. cbn. split; auto. split; auto.
  intros H. specialize (H 0%nat). cbn in H. assert (H' := H ltac:(auto)). injection H' as H'.
  apply Ha1. apply (Rmult_eq_reg_l (mu / am)).
  - rewrite Rmult_1_r. rewrite H' at 2. field. auto.
  - apply Rmult_integral_contrapositive; split; auto. now apply Rinv_neq_0_compat.
Qed.

