(** Proofs of the property theorems stated in [Props_score]. *)
From Coq Require Import Reals Lra Lia Psatz String Bool.
From Coquelicot Require Import Coquelicot.
From Coq Require Import List.
From Verif Require Import Xf Py Xf_facts Py_facts Calc Np Np_facts Vt_model vt_thms Hyperpe_model SpecHyper hypera_thms hyperc_thms SpecProb prob_thms lln_thms SpecScore.
Import ListNotations.
Local Open Scope R_scope.

Lemma total_pos {D} (f : D -> R) l : l <> [] -> (forall d, In d l -> 0 < f d) -> 0 < total (map f l).
Proof.
  induction l as [|d l IH]; intros H1 H2; [congruence|]. unfold total in *. simpl. pose proof (H2 d (or_introl eq_refl)).
  destruct l as [|e l]; [simpl; lra|]. assert (0 < fold_right Rplus 0 (map f (e :: l))) by (apply IH; [congruence|intros; apply H2; now right]). lra.
Qed.
Lemma total_scale {D} (f : D -> R) k l : total (map (fun d => k * f d) l) = k * total (map f l).
Proof. unfold total. induction l as [|d l IH]; simpl; [ring|rewrite IH; ring]. Qed.
Lemma total_le0 {D} (f : D -> R) l : (forall d, In d l -> f d <= 0) -> total (map f l) <= 0 /\ (total (map f l) = 0 -> forall d, In d l -> f d = 0).
Proof.
  induction l as [|d l IH]; intros H; unfold total in *; simpl; [split; [lra|tauto]|]. destruct IH as [I1 I2]; [intros; apply H; now right|]. pose proof (H d (or_introl eq_refl)) as H0.
  split; [lra|]. intros E e [<-|He]; [lra|apply I2; [lra|exact He]].
Qed.
(** ln r - ln p <= r/p - 1, with equality only for equal arguments. *)
Lemma gibbs1 p r : 0 < p -> 0 < r -> p * (ln r - ln p) - (r - p) <= 0 /\ (p * (ln r - ln p) - (r - p) = 0 -> r = p).
Proof.
  intros Hp Hr. assert (E : r = p * exp (ln r - ln p)) by (unfold Rminus; rewrite exp_plus, exp_Ropp, !exp_ln by lra; field; lra).
  set (t := ln r - ln p) in *. destruct (Req_dec t 0) as [H0|H0].
  - rewrite H0, exp_0 in E. split; [rewrite H0; lra|lra].
  - pose proof (exp_ineq1 t H0). assert (p * (1 + t) < p * exp t) by (apply Rmult_lt_compat_l; lra). split; [lra|intros; lra].
Qed.
Lemma gibbs {D} (l : list D) (p r : D -> R) : (forall d, In d l -> 0 < p d /\ 0 < r d) ->
  total (map (fun d => p d * (ln (r d) - ln (p d))) l) <= total (map r l) - total (map p l) /\
  (total (map (fun d => p d * (ln (r d) - ln (p d))) l) = total (map r l) - total (map p l) <-> forall d, In d l -> r d = p d).
Proof.
  intros H. set (f := fun d => p d * (ln (r d) - ln (p d)) - (r d - p d)).
  assert (E : total (map f l) = total (map (fun d => p d * (ln (r d) - ln (p d))) l) - (total (map r l) - total (map p l))).
  { unfold f, total. clear H. induction l as [|d l IH]; simpl; [ring|rewrite IH; ring]. }
  destruct (total_le0 f l) as [A B]. { intros d Hd. destruct (H d Hd). now apply gibbs1. }
  split; [lra|]. split.
  - intros Q d Hd. destruct (H d Hd). apply (proj2 (gibbs1 (p d) (r d) ltac:(assumption) ltac:(assumption))). apply B; [lra|exact Hd].
  - intros Q. assert (total (map f l) = 0); [|lra]. unfold total. clear - Q. induction l as [|d l IH]; [reflexivity|]. simpl. rewrite IH; [|intros; apply Q; now right].
    unfold f. rewrite (Q d (or_introl eq_refl)). ring.
Qed.
Lemma among_one {D} (seen : list D) (Z : D -> R) : seen <> [] -> (forall d, In d seen -> 0 < Z d) ->
  (forall d, In d seen -> 0 < among_seen seen Z d) /\ total (map (among_seen seen Z) seen) = 1.
Proof.
  intros H1 H2. pose proof (total_pos Z seen H1 H2) as T. split; [intros d Hd; unfold among_seen; apply Rdiv_lt_0_compat; [now apply H2|exact T]|].
  transitivity (/ total (map Z seen) * total (map Z seen)); [|field; lra]. rewrite <- total_scale. f_equal. apply map_ext. intros d. unfold among_seen, Rdiv. ring.
Qed.
Lemma weights_sum {D} (c Z : D -> R) W l : Forall2 (fun w d => mean w = c d * Z d) W l ->
  Rsum (map (fun w => ln (mean w)) W) = Rsum (map (fun d => ln (c d * Z d)) l).
Proof. induction 1 as [|w d W l E H IH]; simpl; [reflexivity|]. now rewrite E, IH. Qed.
Lemma hyper_value {D} bk prob sel conv (L : list D -> likelihood) parameters converted seen (c Z : D -> R) l : li_kind (L l) = Hyper -> conv parameters = Ok converted ->
  analysed prob converted c Z (L l) l -> selected sel converted seen Z -> 0 < total (map Z seen) ->
  ln_l_of bk prob sel conv L parameters l (Rsum (map (fun d => ln (c d * Z d)) l) - INR (List.length l) * ln (total (map Z seen))).
Proof.
  intros K C (Hn & W & HW & HP & HM) (v & HS) T.
  assert (HS' : exists rs, sel converted = Ok rs /\ (rs = ValueAndVariance (Fin (total (map Z seen))) (Fin v) \/ rs = Value (Fin (total (map Z seen))) /\ v = 0)).
  { destruct HS as [E|[E E']]; eexists; (split; [exact E|]); [now left|right; now split]. }
  destruct HS' as (rs & E1 & E2). unfold ln_l_of. rewrite (C58_formula_pf bk prob sel conv (L l) parameters converted W _ v rs K C HW HP T E1 E2), (weights_sum c Z W l HM), Hn. eauto.
Qed.
Lemma rate_value {D} bk prob sel conv (L : list D -> likelihood) parameters converted seen (c Z : D -> R) r l : li_kind (L l) = Rate -> conv parameters = Ok converted ->
  analysed prob converted c Z (L l) l -> selected sel converted seen Z -> 0 < total (map Z seen) -> dget "rate"%string converted = Some (Fin r) -> 0 < r ->
  ln_l_of bk prob sel conv L parameters l (Rsum (map (fun d => ln (c d * Z d)) l) - r * total (map Z seen) + INR (List.length l) * ln r).
Proof.
  intros K C (Hn & W & HW & HP & HM) (v & HS) T G Hr. unfold ln_l_of.
  rewrite (C64_formula_pf bk prob sel conv (L l) parameters converted W (total (map Z seen)) v r K C HW HP HS ltac:(lra) G Hr), (weights_sum c Z W l HM), Hn. eauto.
Qed.
Lemma E_hyper {D} (seen : list D) (pmf h : D -> R) k n : total (map pmf seen) = 1 ->
  expectation seen pmf n (fun l => Rsum (map h l) - INR (List.length l) * k) = INR n * (mean_of seen pmf h - k).
Proof.
  intros one. rewrite (E_ext seen pmf n _ (fun l => 1 * Rsum (map h l) + (- (INR n * k)) * 1)).
  - rewrite (E_lin seen pmf n (fun l => Rsum (map h l)) (fun _ => 1)), (E_sum seen pmf one), (E_const seen pmf one). ring.
  - intros l [Hl _]. rewrite Hl. ring.
Qed.
Lemma E_rate {D} (seen : list D) (pmf h : D -> R) k b n : total (map pmf seen) = 1 ->
  expectation seen pmf n (fun l => Rsum (map h l) - b + INR (List.length l) * k) = INR n * (mean_of seen pmf h + k) - b.
Proof.
  intros one. rewrite (E_ext seen pmf n _ (fun l => 1 * Rsum (map h l) + (INR n * k - b) * 1)).
  - rewrite (E_lin seen pmf n (fun l => Rsum (map h l)) (fun _ => 1)), (E_sum seen pmf one), (E_const seen pmf one). ring.
  - intros l [Hl _]. rewrite Hl. ring.
Qed.
Lemma mean_diff {D} (seen : list D) (pmf f g : D -> R) : mean_of seen pmf f - mean_of seen pmf g = total (map (fun d => pmf d * (f d - g d)) seen).
Proof. unfold mean_of, total. induction seen as [|d l IH]; simpl; [ring|]. rewrite <- IH. ring. Qed.

Lemma C123_truth_maximal_pf :
  forall (D : Type) (seen : list D) (truth trial c : D -> R) bk prob sel conv (L : list D -> likelihood) p_truth p_trial q_truth q_trial n,
  seen <> [] -> (forall d, In d seen -> 0 < truth d /\ 0 < trial d /\ 0 < c d) ->
  conv p_truth = Ok q_truth -> conv p_trial = Ok q_trial -> selected sel q_truth seen truth -> selected sel q_trial seen trial ->
  (forall l, draws seen n l -> li_kind (L l) = Hyper /\ analysed prob q_truth c truth (L l) l /\ analysed prob q_trial c trial (L l) l) ->
  exists at_truth at_trial : list D -> R,
    (forall l, draws seen n l -> ln_l_of bk prob sel conv L p_truth l (at_truth l) /\ ln_l_of bk prob sel conv L p_trial l (at_trial l)) /\
    expectation seen (among_seen seen truth) n at_trial <= expectation seen (among_seen seen truth) n at_truth /\
    ((0 < n)%nat ->
     (expectation seen (among_seen seen truth) n at_trial = expectation seen (among_seen seen truth) n at_truth <->
      forall d, In d seen -> among_seen seen trial d = among_seen seen truth d)).
Proof.
  intros D seen truth trial c bk prob sel conv L pt pp qt qp n Hne Hpos Ct Cp St Sp HL.
  assert (Pt : forall d, In d seen -> 0 < truth d) by (intros d Hd; apply Hpos, Hd).
  assert (Pp : forall d, In d seen -> 0 < trial d) by (intros d Hd; apply Hpos, Hd).
  pose proof (total_pos truth seen Hne Pt) as Tt. pose proof (total_pos trial seen Hne Pp) as Tp.
  destruct (among_one seen truth Hne Pt) as [At1 At2]. destruct (among_one seen trial Hne Pp) as [Ap1 Ap2].
  exists (fun l => Rsum (map (fun d => ln (c d * truth d)) l) - INR (List.length l) * ln (total (map truth seen))),
         (fun l => Rsum (map (fun d => ln (c d * trial d)) l) - INR (List.length l) * ln (total (map trial seen))).
  split.
  { intros l Hl. destruct (HL l Hl) as (K & A1 & A2). split; eapply hyper_value; eauto. }
  rewrite !E_hyper by exact At2.
  set (h1 := mean_of seen (among_seen seen truth) (fun d => ln (c d * truth d)) - ln (total (map truth seen))).
  set (h2 := mean_of seen (among_seen seen truth) (fun d => ln (c d * trial d)) - ln (total (map trial seen))).
  assert (Dif : h2 - h1 = total (map (fun d => among_seen seen truth d * (ln (among_seen seen trial d) - ln (among_seen seen truth d))) seen)).
  { unfold h1, h2. transitivity (mean_of seen (among_seen seen truth) (fun d => ln (c d * trial d)) - mean_of seen (among_seen seen truth) (fun d => ln (c d * truth d))
      - (ln (total (map trial seen)) - ln (total (map truth seen))) * total (map (among_seen seen truth) seen)); [rewrite At2; ring|].
    rewrite mean_diff. set (k := ln (total (map trial seen)) - ln (total (map truth seen))).
    assert (G : forall l, incl l seen -> total (map (fun d => among_seen seen truth d * (ln (c d * trial d) - ln (c d * truth d))) l) - k * total (map (among_seen seen truth) l)
      = total (map (fun d => among_seen seen truth d * (ln (among_seen seen trial d) - ln (among_seen seen truth d))) l)).
    { induction l as [|d l IH]; intros Hi; unfold total in *; simpl; [ring|]. rewrite <- IH by (intros x Hx; apply Hi; now right).
      assert (Hd : In d seen) by (apply Hi; now left). destruct (Hpos d Hd) as (Q1 & Q2 & Q3). set (m := among_seen seen truth d) at 1 2 3.
      assert (Lt : ln (among_seen seen truth d) = ln (truth d) - ln (total (map truth seen))) by (unfold among_seen; now apply ln_div).
      assert (Lp : ln (among_seen seen trial d) = ln (trial d) - ln (total (map trial seen))) by (unfold among_seen; now apply ln_div).
      rewrite Lt, Lp, !ln_mult by lra. unfold k, total. ring. }
    apply G. apply incl_refl. }
  destruct (gibbs seen (among_seen seen truth) (among_seen seen trial)) as [G1 G2]. { intros d Hd. split; [now apply At1|now apply Ap1]. }
  rewrite At2, Ap2, <- Dif in G1, G2. pose proof (pos_INR n). split; [apply Rmult_le_compat_l; lra|].
  intros Hn. assert (Hn' : 0 < INR n) by (apply lt_0_INR; exact Hn). rewrite <- G2. split.
  - intros E. apply Rmult_eq_reg_l in E; lra.
  - intros E. f_equal. lra.
Qed.

Lemma cat_mean {D} (seen : list D) (pmf : D -> R) (often : nat -> R) (F : list D -> R) a b m :
  (forall n, expectation seen pmf n F = INR n * a - b) -> is_series often 1 -> is_series (fun n => often n * INR n) m -> catalogue_mean seen pmf often F (m * a - b).
Proof.
  intros H H1 H2. unfold catalogue_mean.
  pose proof (is_series_scal_l a _ _ H2) as A. pose proof (is_series_scal_l (- b) _ _ H1) as B. pose proof (is_series_plus _ _ _ _ A B) as C.
  replace (m * a - b) with (plus (scal a m) (scal (- b) 1)) by (unfold plus, scal; simpl; unfold mult; simpl; ring).
  refine (is_series_ext _ _ _ _ C). intros n. rewrite H. unfold plus, scal; simpl. unfold mult; simpl. ring.
Qed.

Lemma C123_rate_pf :
  forall (D : Type) (seen : list D) (truth trial c : D -> R) bk prob sel conv (L : list D -> likelihood) p_truth p_trial q_truth q_trial r_truth r_trial often,
  seen <> [] -> (forall d, In d seen -> 0 < truth d /\ 0 < trial d /\ 0 < c d) -> 0 < r_truth -> 0 < r_trial ->
  conv p_truth = Ok q_truth -> conv p_trial = Ok q_trial -> selected sel q_truth seen truth -> selected sel q_trial seen trial ->
  dget "rate"%string q_truth = Some (Fin r_truth) -> dget "rate"%string q_trial = Some (Fin r_trial) ->
  is_series often 1 -> is_series (fun n => often n * INR n) (r_truth * total (map truth seen)) ->
  (forall n l, often n <> 0 -> draws seen n l -> li_kind (L l) = Rate /\ analysed prob q_truth c truth (L l) l /\ analysed prob q_trial c trial (L l) l) ->
  exists (at_truth at_trial : list D -> R) (mean_truth mean_trial : R),
    (forall n l, often n <> 0 -> draws seen n l -> ln_l_of bk prob sel conv L p_truth l (at_truth l) /\ ln_l_of bk prob sel conv L p_trial l (at_trial l)) /\
    catalogue_mean seen (among_seen seen truth) often at_truth mean_truth /\ catalogue_mean seen (among_seen seen truth) often at_trial mean_trial /\
    mean_trial <= mean_truth /\ (mean_trial = mean_truth <-> forall d, In d seen -> r_trial * trial d = r_truth * truth d).
Proof.
  intros D seen truth trial c bk prob sel conv L pt pp qt qp rt rp often Hne Hpos Hrt Hrp Ct Cp St Sp Gt Gp O1 O2 HL.
  assert (Pt : forall d, In d seen -> 0 < truth d) by (intros d Hd; apply Hpos, Hd).
  assert (Pp : forall d, In d seen -> 0 < trial d) by (intros d Hd; apply Hpos, Hd).
  pose proof (total_pos truth seen Hne Pt) as Tt. pose proof (total_pos trial seen Hne Pp) as Tp.
  destruct (among_one seen truth Hne Pt) as [At1 At2].
  set (pm := among_seen seen truth) in *. set (m := rt * total (map truth seen)) in *.
  exists (fun l => Rsum (map (fun d => ln (c d * truth d)) l) - rt * total (map truth seen) + INR (List.length l) * ln rt),
         (fun l => Rsum (map (fun d => ln (c d * trial d)) l) - rp * total (map trial seen) + INR (List.length l) * ln rp),
         (m * (mean_of seen pm (fun d => ln (c d * truth d)) + ln rt) - rt * total (map truth seen)),
         (m * (mean_of seen pm (fun d => ln (c d * trial d)) + ln rp) - rp * total (map trial seen)).
  split. { intros n l Hn Hl. destruct (HL n l Hn Hl) as (K & A1 & A2). split; eapply rate_value; eauto. }
  split. { apply cat_mean; [intros n; now apply E_rate|exact O1|exact O2]. }
  split. { apply cat_mean; [intros n; now apply E_rate|exact O1|exact O2]. }
  assert (Dif : m * (mean_of seen pm (fun d => ln (c d * trial d)) + ln rp) - m * (mean_of seen pm (fun d => ln (c d * truth d)) + ln rt)
     = total (map (fun d => rt * truth d * (ln (rp * trial d) - ln (rt * truth d))) seen)).
  { transitivity (m * (mean_of seen pm (fun d => ln (c d * trial d)) - mean_of seen pm (fun d => ln (c d * truth d))) + m * (ln rp - ln rt) * total (map pm seen)); [rewrite At2; ring|].
    rewrite mean_diff. assert (G : forall l, incl l seen -> m * total (map (fun d => pm d * (ln (c d * trial d) - ln (c d * truth d))) l) + m * (ln rp - ln rt) * total (map pm l)
      = total (map (fun d => rt * truth d * (ln (rp * trial d) - ln (rt * truth d))) l)).
    { induction l as [|d l IH]; intros Hi; unfold total in *; simpl; [ring|]. rewrite <- IH by (intros x Hx; apply Hi; now right).
      assert (Hd : In d seen) by (apply Hi; now left). destruct (Hpos d Hd) as (Q1 & Q2 & Q3). rewrite !ln_mult by lra.
      assert (Q : rt * truth d = m * pm d) by (unfold m, pm, among_seen, total; field; unfold total in *; lra). rewrite Q. ring. }
    apply G. apply incl_refl. }
  destruct (gibbs seen (fun d => rt * truth d) (fun d => rp * trial d)) as [G1 G2]. { intros d Hd. split; apply Rmult_lt_0_compat; auto. }
  rewrite !total_scale in G1, G2. cbv beta in G1, G2. rewrite <- Dif in G1, G2. split; [lra|]. rewrite <- G2. split; intros; lra.
Qed.

Lemma is_series_poisson lambda : is_series (poisson lambda) 1 /\ is_series (fun n => poisson lambda n * INR n) lambda.
Proof.
  assert (S0 : is_series (fun n => lambda ^ n / INR (fact n)) (exp lambda)).
  { generalize (is_exp_Reals lambda). unfold is_pseries. apply is_series_ext. intros n. rewrite pow_n_pow. unfold scal; simpl. unfold mult; simpl. unfold Rdiv. ring. }
  assert (E : exp (- lambda) * exp lambda = 1) by (rewrite <- exp_plus, Rplus_opp_l; apply exp_0).
  split.
  - pose proof (is_series_scal_l (exp (- lambda)) _ _ S0) as A. replace 1 with (scal (exp (- lambda)) (exp lambda)) by exact E. exact A.
  - pose proof (is_series_scal_l (lambda * exp (- lambda)) _ _ S0) as A.
    assert (Q : scal (lambda * exp (- lambda)) (exp lambda) = plus lambda (opp (poisson lambda 0 * INR 0))).
    { change (lambda * exp (- lambda) * exp lambda = lambda + - (poisson lambda 0 * 0)). rewrite Rmult_assoc, E. ring. }
    apply is_series_decr_1. refine (eq_ind _ (fun z => is_series _ z) _ _ Q).
    refine (is_series_ext _ _ _ _ A). intros n. unfold poisson. rewrite fact_simpl, mult_INR. pose proof (INR_fact_neq_0 n). pose proof (not_0_INR (Datatypes.S n) ltac:(lia)).
    unfold scal; simpl pow; simpl scal. unfold mult; simpl mult. change (lambda * exp (- lambda) * (lambda ^ n / INR (fact n)) = exp (- lambda) * (lambda * lambda ^ n / (INR (Datatypes.S n) * INR (fact n))) * INR (Datatypes.S n)).
    field. split; assumption.
Qed.

Lemma C123_poisson_pf :
  forall lambda, is_series (poisson lambda) 1 /\ is_series (fun n => poisson lambda n * INR n) lambda.
Proof. exact is_series_poisson. Qed.

