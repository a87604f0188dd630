(** Proofs of the property theorems stated in [Props_bound]. *)
From Coq Require Import Reals Lra Lia Psatz String Bool.
From Coquelicot Require Import Coquelicot.
From Coq Require Import List.
From Verif Require Import Xf Py Xf_facts Py_facts Calc Np Vt_model vt_thms Hyperpe_model SpecHyper hypera_thms hyperc_thms SpecInvar invar_thms SpecBound.
Import ListNotations.
Local Open Scope R_scope.

Lemma f2_len {A B} (P : A -> B -> Prop) l l' : Forall2 P l l' -> List.length l = List.length l'.
Proof. induction 1; cbn; auto. Qed.
Lemma Rsum_cons (x : R) l : Rsum (x :: l) = x + Rsum l.
Proof. reflexivity. Qed.
Lemma mean_bounds a b w : w <> [] -> Forall (fun x => a <= x <= b) w -> a <= mean w <= b.
Proof.
  intros N F. assert (L : 0 < INR (List.length w)). { destruct w; [easy|]. apply lt_0_INR. simpl; lia. }
  assert (S : INR (List.length w) * a <= Rsum w <= INR (List.length w) * b).
  { clear N L. induction F as [|x w [A B] F IH]; [simpl; lra|]. cbn [List.length]. rewrite S_INR, Rsum_cons. lra. }
  unfold mean. split.
  - apply (Rmult_le_reg_r (INR (List.length w))); auto. unfold Rdiv. rewrite Rmult_assoc, Rinv_l by lra. lra.
  - apply (Rmult_le_reg_r (INR (List.length w))); auto. unfold Rdiv. rewrite Rmult_assoc, Rinv_l by lra. lra.
Qed.
Lemma ln_le a b : 0 < a -> a <= b -> ln a <= ln b.
Proof. intros A [B| ->]; [left; now apply ln_increasing|right; auto]. Qed.
Lemma Rsum_le w w' : Forall2 Rle w w' -> Rsum w <= Rsum w'.
Proof. induction 1; [simpl; lra|]. rewrite !Rsum_cons. lra. Qed.
Lemma mean_le w w' : w <> [] -> Forall2 Rle w w' -> mean w <= mean w'.
Proof.
  intros N F. assert (L : 0 < INR (List.length w)). { destruct w; [easy|]. apply lt_0_INR. simpl; lia. }
  unfold mean. rewrite <- (f2_len _ _ _ F). apply Rmult_le_compat_r; [left; now apply Rinv_0_lt_compat|]. now apply Rsum_le.
Qed.
Lemma sums_ln_le L W W' : positive_weights L W -> Forall2 (Forall2 Rle) W W' -> Rsum (map (fun w => ln (mean w)) W) <= Rsum (map (fun w => ln (mean w)) W').
Proof.
  intros P F. apply pw_ne in P. induction F as [|w w' W W' H F IH]; [lra|]. inversion P as [|? ? [N Q] P']; subst. cbn [map]. rewrite !Rsum_cons.
  assert (ln (mean w) <= ln (mean w')); [|specialize (IH P'); lra]. apply ln_le; [now apply mean_pos|now apply mean_le].
Qed.
Lemma sums_ln_bounds L W a b : 0 < a -> positive_weights L W -> Forall (Forall (fun x => a <= x <= b)) W ->
  INR (List.length W) * ln a <= Rsum (map (fun w => ln (mean w)) W) <= INR (List.length W) * ln b.
Proof.
  intros A P F. apply pw_ne in P. induction F as [|w W H F IH]; [simpl; lra|]. inversion P as [|? ? [N Q] P']; subst. cbn [map List.length]. rewrite S_INR, !Rsum_cons.
  destruct (mean_bounds a b w N H) as [B C]. assert (ln a <= ln (mean w)) by now apply ln_le. assert (ln (mean w) <= ln b) by (apply ln_le; auto; lra).
  specialize (IH P'). lra.
Qed.
Lemma lnl_hyper_fin bk prob sel conv L pr cv W s v : li_kind L = Hyper -> conv pr = Ok cv -> weights_are prob L cv W -> positive_weights L W ->
  selection_with_uncertainty sel cv = Ok (Fin s, Fin v) -> 0 < s ->
  exists var, ln_likelihood_and_variance bk prob sel conv L pr = Ok (Fin (Rsum (map (fun w => ln (mean w)) W) - INR (li_n L) * ln s), var).
Proof.
  intros K C HW PW S Hs. rewrite (lnl_hyper bk prob sel conv L pr cv W K C HW PW), S. cbn [bind]. rewrite flog_fin by auto. unfold of_nat. cbn [fopp]. rewrite fmul_fin, fadd_fin.
  eexists. do 3 f_equal. ring.
Qed.
Lemma lnl_rate_fin bk prob sel conv L pr cv W s v r : li_kind L = Rate -> conv pr = Ok cv -> weights_are prob L cv W -> positive_weights L W ->
  selection_with_uncertainty sel cv = Ok (Fin s, Fin v) -> 0 < s -> dget "rate" cv = Some (Fin r) -> 0 < r ->
  exists var, ln_likelihood_and_variance bk prob sel conv L pr = Ok (Fin (Rsum (map (fun w => ln (mean w)) W) + (- (s * r) + INR (li_n L) * ln r)), var).
Proof. intros. eexists. eapply lnl_rate; eauto. Qed.

Lemma C108_bounds_pf :
  forall bk prob sel conv L parameters converted W s v a b, li_kind L = Hyper -> conv parameters = Ok converted ->
  weights_are prob L converted W -> positive_weights L W -> List.length W = li_n L ->
  (sel converted = Ok (ValueAndVariance (Fin s) (Fin v)) \/ sel converted = Ok (Value (Fin s))) -> 0 < s ->
  0 < a -> Forall (Forall (fun w => a <= w <= b)) W -> (0 < li_n L)%nat ->
  exists ln_l variance, ln_likelihood_and_variance bk prob sel conv L parameters = Ok (Fin ln_l, variance) /\
    INR (li_n L) * ln (a / s) <= ln_l <= INR (li_n L) * ln (b / s).
Proof.
  intros bk prob sel conv L pr cv W s v a b K C HW PW LW S Hs Ha F Hn.
  assert (E : exists v', selection_with_uncertainty sel cv = Ok (Fin s, Fin v')).
  { destruct S as [S|S]; [exists v|exists 0]; eapply swu_val; eauto. }
  destruct E as (v' & E). destruct (lnl_hyper_fin bk prob sel conv L pr cv W s v' K C HW PW E Hs) as (var & V).
  exists (Rsum (map (fun w => ln (mean w)) W) - INR (li_n L) * ln s), var. split; [exact V|].
  assert (B : 0 < b).
  { destruct W as [|w W]; [simpl in LW; lia|]. apply pw_ne in PW. inversion PW as [|? ? [N _] _]; subst. inversion F as [|? ? G _]; subst. destruct w as [|x w]; [easy|]. inversion G; subst. lra. }
  rewrite !ln_div by lra. rewrite <- LW. destruct (sums_ln_bounds L W a b Ha PW F). lra.
Qed.

Lemma C108_monotone_pf :
  forall bk prob prob' sel sel' conv conv' L parameters parameters' converted converted' W W' s s' v v', li_kind L = Hyper ->
  conv parameters = Ok converted -> conv' parameters' = Ok converted' ->
  weights_are prob L converted W -> weights_are prob' L converted' W' -> positive_weights L W -> positive_weights L W' ->
  sel converted = Ok (ValueAndVariance (Fin s) (Fin v)) -> sel' converted' = Ok (ValueAndVariance (Fin s') (Fin v')) -> 0 < s' ->
  Forall2 (Forall2 Rle) W W' -> s' <= s ->
  exists ln_l ln_l' variance variance',
    ln_likelihood_and_variance bk prob sel conv L parameters = Ok (Fin ln_l, variance) /\
    ln_likelihood_and_variance bk prob' sel' conv' L parameters' = Ok (Fin ln_l', variance') /\
    ln_l <= ln_l' /\ (s' < s -> (0 < li_n L)%nat -> ln_l < ln_l').
Proof.
  intros bk prob prob' sel sel' conv conv' L pr pr' cv cv' W W' s s' v v' K C C' HW HW' PW PW' S S' Hs F Hss.
  destruct (lnl_hyper_fin bk prob sel conv L pr cv W s v K C HW PW) as (var & V); [eapply swu_val; eauto|lra|].
  destruct (lnl_hyper_fin bk prob' sel' conv' L pr' cv' W' s' v' K C' HW' PW') as (var' & V'); [eapply swu_val; eauto|lra|].
  do 4 eexists. split; [exact V|]. split; [exact V'|]. assert (A := sums_ln_le L W W' PW F). assert (B := pos_INR (li_n L)).
  split.
  - assert (ln s' <= ln s) by now apply ln_le. assert (INR (li_n L) * ln s' <= INR (li_n L) * ln s) by now apply Rmult_le_compat_l. lra.
  - intros Q N. assert (ln s' < ln s) by now apply ln_increasing. apply lt_0_INR in N. assert (INR (li_n L) * ln s' < INR (li_n L) * ln s) by now apply Rmult_lt_compat_l. lra.
Qed.

Lemma quotients_le p p' q : Forall2 Rle p p' -> Forall (fun x => 0 < x) q -> Forall2 Rle (quotients p q) (quotients p' q).
Proof.
  intros F. revert q. induction F as [|x x' p p' H F IH]; intros [|y q] Q; cbn; try constructor; inversion Q; subst.
  - cbn [fst snd]. apply Rmult_le_compat_r; auto. left. now apply Rinv_0_lt_compat.
  - now apply IH.
Qed.
Lemma quotients_bounds a b p q : List.length p = List.length q -> Forall (fun x => a <= x <= b) (quotients p q) ->
  INR (List.length q) * a <= Rsum (quotients p q) <= INR (List.length q) * b.
Proof.
  intros E F. rewrite <- (quotients_len p q E). clear E. induction F as [|x w [A B] F IH]; [simpl; lra|]. cbn [List.length]. rewrite S_INR, Rsum_cons. lra.
Qed.

Lemma C108_efficiency_pf :
  forall bk prob v parameters p q N, injections_are prob v parameters p q N ->
  exists mu var, detection_efficiency bk prob v parameters = Ok (Fin mu, Fin var) /\
    (forall a b, Forall (fun w => a <= w <= b) (quotients p q) -> a * (INR (List.length q) / N) <= mu <= b * (INR (List.length q) / N)) /\
    (forall prob' p', injections_are prob' v parameters p' q N -> Forall (fun x => 0 < x) q -> Forall2 Rle p p' ->
       exists mu' var', detection_efficiency bk prob' v parameters = Ok (Fin mu', Fin var') /\ mu <= mu').
Proof.
  intros bk prob v h p q N A. rewrite (de_are bk prob v h p q N A). do 2 eexists. split; [reflexivity|]. assert (HN : 0 < N) by apply A. split.
  - intros a b F. assert (E : List.length p = List.length q) by apply A. destruct (quotients_bounds a b p q E F) as [X Y]. unfold dmu, Rdiv. split.
    + replace (a * (INR (List.length q) * / N)) with (INR (List.length q) * a * / N) by ring. apply Rmult_le_compat_r; auto. left. now apply Rinv_0_lt_compat.
    + replace (b * (INR (List.length q) * / N)) with (INR (List.length q) * b * / N) by ring. apply Rmult_le_compat_r; auto. left. now apply Rinv_0_lt_compat.
  - intros prob' p' A' Q F. rewrite (de_are bk prob' v h p' q N A'). do 2 eexists. split; [reflexivity|]. unfold dmu, Rdiv.
    apply Rmult_le_compat_r; [left; now apply Rinv_0_lt_compat|]. apply Rsum_le. now apply quotients_le.
Qed.

Lemma ln_concave t x y : 0 < t < 1 -> 0 < x -> 0 < y ->
  t * ln x + (1 - t) * ln y <= ln (t * x + (1 - t) * y) /\ (t * ln x + (1 - t) * ln y = ln (t * x + (1 - t) * y) <-> x = y).
Proof.
  intros T X Y. set (m := t * x + (1 - t) * y). assert (0 < t * x) by (apply Rmult_lt_0_compat; lra). assert (0 < (1 - t) * y) by (apply Rmult_lt_0_compat; lra).
  assert (M : 0 < m) by (unfold m; lra). assert (XM : 0 < x / m) by now apply Rdiv_lt_0_compat. assert (YM : 0 < y / m) by now apply Rdiv_lt_0_compat.
  assert (A := ln_le_sub _ XM). assert (B := ln_le_sub _ YM). assert (EX : ln (x / m) = ln x - ln m) by now rewrite ln_div. assert (EY : ln (y / m) = ln y - ln m) by now rewrite ln_div.
  assert (Z : t * (x / m - 1) + (1 - t) * (y / m - 1) = 0).
  { replace (t * (x / m - 1) + (1 - t) * (y / m - 1)) with ((t * x + (1 - t) * y) / m - 1) by (field; lra). fold m. field. lra. }
  assert (TA : t * ln (x / m) <= t * (x / m - 1)) by (apply Rmult_le_compat_l; lra).
  assert (TB : (1 - t) * ln (y / m) <= (1 - t) * (y / m - 1)) by (apply Rmult_le_compat_l; lra).
  rewrite EX in TA. rewrite EY in TB. split; [lra|]. split.
  - intros Q. assert (P : t * ln (x / m) = t * (x / m - 1)) by (rewrite EX; lra). apply Rmult_eq_reg_l in P; [|lra]. apply ln_eq_sub in P; auto.
    assert (x = m). { apply (Rmult_eq_reg_r (/ m)); [rewrite Rinv_r by lra; exact P|]. apply Rinv_neq_0_compat; lra. }
    unfold m in H1. apply (Rmult_eq_reg_l (1 - t)); lra.
  - intros ->. replace m with y by (unfold m; ring). ring.
Qed.
Lemma mix_len t a b : List.length a = List.length b -> List.length (mix t a b) = List.length a.
Proof. intros H. unfold mix. rewrite map_length, combine_length, H. apply Nat.min_id. Qed.
Lemma mix_sum t a b : List.length a = List.length b -> Rsum (mix t a b) = t * Rsum a + (1 - t) * Rsum b.
Proof.
  revert b. induction a as [|x a IH]; intros [|y b] H; try discriminate; [simpl; lra|]. unfold mix in *. cbn [combine map fst snd]. rewrite !Rsum_cons, IH by (simpl in H; lia). ring.
Qed.
Lemma mix_mean t a b : List.length a = List.length b -> mean (mix t a b) = t * mean a + (1 - t) * mean b.
Proof. intros H. unfold mean. rewrite mix_sum, mix_len, H by auto. unfold Rdiv. ring. Qed.
Lemma mix_pos t a b : 0 < t < 1 -> Forall (fun x => 0 < x) a -> Forall (fun x => 0 < x) b -> Forall (fun x => 0 < x) (mix t a b).
Proof.
  intros T F. revert b. induction F as [|x a X F IH]; intros b G; [constructor|]. destruct G as [|y b Y G]; [constructor|]. unfold mix in *. cbn [combine map fst snd]. constructor.
  - assert (0 < t * x) by (apply Rmult_lt_0_compat; lra). assert (0 < (1 - t) * y) by (apply Rmult_lt_0_compat; lra). lra.
  - now apply IH.
Qed.
Lemma quotients_mix t a b q : quotients (mix t a b) q = mix t (quotients a q) (quotients b q).
Proof.
  unfold quotients, mix. revert b q. induction a as [|x a IH]; intros [|y b] [|z q]; try reflexivity.
  cbn [combine map fst snd]. rewrite IH. f_equal. unfold Rdiv. ring.
Qed.
Definition mixw t (W W' : list (list R)) := map (fun r => mix t (fst r) (snd r)) (combine W W').
Lemma weights_mixed t p1 p2 p L h W1 W2 : events_mixed t p1 p2 p -> weights_are p1 L h W1 -> weights_are p2 L h W2 -> map (@List.length R) W1 = map (@List.length R) W2 ->
  weights_are p L h (mixw t W1 W2).
Proof.
  intros M (P1 & E1 & Q1) (P2 & E2 & Q2) S. destruct (li_prior L) as [q|] eqn:EL.
  2:{ subst. exists (mixw t P1 P2). split; [now apply M|]. now rewrite EL. }
  destruct Q1 as (Q & Eq & NZ & S1 & ->). destruct Q2 as (Q' & Eq' & _ & S2 & ->).
  assert (Q' = Q) as ->.
  { rewrite Eq in Eq'. clear - Eq'. revert Q' Eq'. induction Q as [|r Q IH]; intros [|r' Q'] E; try discriminate; auto. simpl in E. injection E as E1 E2. f_equal; [|now apply IH].
    clear - E1. revert r' E1. induction r as [|x r IH]; intros [|y r'] E; try discriminate; auto. simpl in E. injection E as -> E. f_equal. now apply IH. }
  exists (mixw t P1 P2). split; [apply M; auto; congruence|]. rewrite EL. exists Q. split; [auto|]. split; [auto|]. split.
  - clear - S1 S2. rewrite <- S1. assert (S : map (@List.length R) P1 = map (@List.length R) P2) by congruence. clear S1 S2 Q. revert P2 S.
    induction P1 as [|a P1 IH]; intros [|b P2] S; try discriminate; auto. injection S as A B. unfold mixw in *. cbn [combine map fst snd]. rewrite (IH P2 B). f_equal. now apply mix_len.
  - clear. unfold mixw. revert P2 Q. induction P1 as [|a P1 IH]; intros [|b P2] [|c Q]; cbn [combine map fst snd]; try reflexivity.
    rewrite <- IH. f_equal. symmetry. apply quotients_mix.
Qed.
Lemma pw_lengths L W : positive_weights L W -> map (@List.length R) W = repeat (li_samples L) (List.length W).
Proof. intros [_ F]. induction F as [|w W [A _] F IH]; auto. cbn. now rewrite IH, A. Qed.
Lemma positive_mixed t L W1 W2 : 0 < t < 1 -> List.length W1 = List.length W2 -> positive_weights L W1 -> positive_weights L W2 -> positive_weights L (mixw t W1 W2).
Proof.
  intros T E [K F1] [_ F2]. split; auto. clear K. revert W2 E F2. induction F1 as [|w W [A B] F1 IH]; intros [|w' W'] E F2; try discriminate; [constructor|].
  inversion F2 as [|? ? [A' B'] F2']; subst. unfold mixw. cbn [combine map fst snd]. constructor; [|apply IH; auto].
  split; [rewrite mix_len; congruence|now apply mix_pos].
Qed.
Lemma sums_mixed t W1 W2 : 0 < t < 1 -> map (@List.length R) W1 = map (@List.length R) W2 -> Forall (fun w => w <> [] /\ Forall (fun x => 0 < x) w) W1 ->
  Forall (fun w => w <> [] /\ Forall (fun x => 0 < x) w) W2 ->
  t * Rsum (map (fun w => ln (mean w)) W1) + (1 - t) * Rsum (map (fun w => ln (mean w)) W2) <= Rsum (map (fun w => ln (mean w)) (mixw t W1 W2)) /\
  (t * Rsum (map (fun w => ln (mean w)) W1) + (1 - t) * Rsum (map (fun w => ln (mean w)) W2) = Rsum (map (fun w => ln (mean w)) (mixw t W1 W2)) <-> map mean W1 = map mean W2).
Proof.
  intros T S F1. revert W2 S. induction F1 as [|w W [N P] F1 IH]; intros [|w' W'] S F2; try discriminate.
  { simpl. split; [lra|]. split; auto. intros _. lra. }
  inversion F2 as [|? ? [N' P'] F2']; subst. injection S as S0 S. unfold mixw in *. cbn [combine map fst snd]. rewrite !Rsum_cons, mix_mean by auto.
  destruct (IH W' S F2') as [A B]. destruct (ln_concave t (mean w) (mean w') T) as [C D]; try now apply mean_pos.
  split; [lra|]. split.
  - intros Q. f_equal; [apply D; lra|apply B; lra].
  - intros Q. injection Q as Q1 Q2. apply D in Q1. apply B in Q2. lra.
Qed.

Lemma C108_mixture_concave_pf :
  forall bk t prob_1 prob_2 prob inj_1 inj_2 inj conv L v parameters converted W_1 W_2 p_1 p_2 q N r, 0 < t < 1 -> li_kind L = Rate ->
  events_mixed t prob_1 prob_2 prob -> injections_mixed t inj_1 inj_2 inj -> conv parameters = Ok converted ->
  weights_are prob_1 L converted W_1 -> weights_are prob_2 L converted W_2 -> positive_weights L W_1 -> positive_weights L W_2 -> List.length W_1 = List.length W_2 ->
  injections_are inj_1 v converted p_1 q N -> injections_are inj_2 v converted p_2 q N -> 0 < Rsum (quotients p_1 q) -> 0 < Rsum (quotients p_2 q) ->
  rv_marginalize v = false -> rv_enforce v = false -> dget "rate"%string converted = Some (Fin r) -> 0 < r ->
  exists l_1 l_2 l var_1 var_2 var,
    ln_likelihood_and_variance bk prob_1 (resampling_call bk inj_1 v) conv L parameters = Ok (Fin l_1, var_1) /\
    ln_likelihood_and_variance bk prob_2 (resampling_call bk inj_2 v) conv L parameters = Ok (Fin l_2, var_2) /\
    ln_likelihood_and_variance bk prob (resampling_call bk inj v) conv L parameters = Ok (Fin l, var) /\
    t * l_1 + (1 - t) * l_2 <= l /\ (t * l_1 + (1 - t) * l_2 = l <-> map mean W_1 = map mean W_2).
Proof.
  intros bk t prob1 prob2 prob inj1 inj2 inj conv L v pr cv W1 W2 p1 p2 q N r T K EM IM C HW1 HW2 PW1 PW2 LW A1 A2 S1 S2 MG EN DR Hr.
  assert (SW : map (@List.length R) W1 = map (@List.length R) W2) by (rewrite !(pw_lengths L) by auto; now rewrite LW).
  assert (HW := weights_mixed t prob1 prob2 prob L cv W1 W2 EM HW1 HW2 SW). assert (PW := positive_mixed t L W1 W2 T LW PW1 PW2).
  assert (LP : List.length p1 = List.length p2) by (transitivity (List.length q); [apply A1|symmetry; apply A2]).
  assert (A : injections_are inj v cv (mix t p1 p2) q N).
  { destruct A1 as (B1 & B2 & B3 & B4 & B5 & B6 & B7). destruct A2 as (D1 & _). repeat split; auto. rewrite mix_len; auto. }
  assert (LQ : List.length (quotients p1 q) = List.length (quotients p2 q)) by (rewrite !quotients_len; auto; [apply A2|apply A1]).
  assert (HN : 0 < N) by apply A1.
  assert (G : forall f p, injections_are f v cv p q N -> 0 < Rsum (quotients p q) -> selection_with_uncertainty (resampling_call bk f v) cv = Ok (Fin (dmu (quotients p q) N), Fin (dvar (quotients p q) N)) /\ 0 < dmu (quotients p q) N).
  { intros f p AA PP. split; [|unfold dmu; now apply Rdiv_lt_0_compat]. unfold selection_with_uncertainty, resampling_call. rewrite MG, (de_are bk f v cv p q N AA). cbn [bind]. rewrite EN. reflexivity. }
  destruct (G inj1 p1 A1 S1) as [G1 M1]. destruct (G inj2 p2 A2 S2) as [G2 M2].
  assert (SM : 0 < Rsum (quotients (mix t p1 p2) q)).
  { rewrite quotients_mix, mix_sum by auto. assert (0 < t * Rsum (quotients p1 q)) by (apply Rmult_lt_0_compat; lra). assert (0 < (1 - t) * Rsum (quotients p2 q)) by (apply Rmult_lt_0_compat; lra). lra. }
  destruct (G inj _ A SM) as [G3 M3].
  destruct (lnl_rate_fin bk prob1 _ conv L pr cv W1 _ _ r K C HW1 PW1 G1 M1 DR Hr) as (v1 & V1).
  destruct (lnl_rate_fin bk prob2 _ conv L pr cv W2 _ _ r K C HW2 PW2 G2 M2 DR Hr) as (v2 & V2).
  destruct (lnl_rate_fin bk prob _ conv L pr cv _ _ _ r K C HW PW G3 M3 DR Hr) as (v3 & V3).
  do 6 eexists. split; [exact V1|]. split; [exact V2|]. split; [exact V3|].
  assert (E : dmu (quotients (mix t p1 p2) q) N = t * dmu (quotients p1 q) N + (1 - t) * dmu (quotients p2 q) N) by (rewrite quotients_mix; unfold dmu; rewrite mix_sum by auto; unfold Rdiv; ring).
  rewrite E. destruct (sums_mixed t W1 W2 T SW (pw_ne L W1 PW1) (pw_ne L W2 PW2)) as [X Y].
  split; [lra|]. rewrite <- Y. split; intros Q; lra.
Qed.

