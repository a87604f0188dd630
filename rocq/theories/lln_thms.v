(** Proofs of the property theorems stated in [Props_lln]. *)
From Coq Require Import Reals Lra Lia Psatz String Bool.
From Coquelicot Require Import Coquelicot.
From Coq Require Import List.
From Verif Require Import Xf Py Xf_facts Py_facts Calc Np Np_facts Vt_model vt_thms Hyperpe_model SpecHyper hypera_thms SpecProb prob_thms.
Import ListNotations.
Local Open Scope R_scope.

Section More.
  Context {O : Type} (space : list O) (pmf : O -> R).
  Hypothesis pos : forall w, In w space -> 0 < pmf w.
  Hypothesis one : total (map pmf space) = 1.
  Notation E1 := (mean_of space pmf).
  Notation E := (expectation space pmf).

  Lemma E1_le f g : (forall w, In w space -> f w <= g w) -> E1 f <= E1 g.
  Proof.
    clear one. revert pos. unfold mean_of, total. induction space as [|w s IH]; intros P H; simpl; [lra|].
    assert (A := P w (or_introl eq_refl)). assert (B := H w (or_introl eq_refl)).
    assert (C := IH (fun x Hx => P x (or_intror Hx)) (fun x Hx => H x (or_intror Hx))). nra.
  Qed.
  Lemma E_le n : forall F G, (forall l, draws space n l -> F l <= G l) -> E n F <= E n G.
  Proof.
    induction n as [|n IH]; intros F G H; simpl; [apply H; split; auto|]. apply E1_le. intros w Hw. apply IH.
    intros l [L A]. apply H. split; [simpl; lia|constructor; auto].
  Qed.
  Lemma E1_lt f g w0 : In w0 space -> (forall w, In w space -> f w <= g w) -> f w0 < g w0 -> E1 f < E1 g.
  Proof.
    clear one. revert pos. unfold mean_of, total. induction space as [|w s IH]; intros P I H L; simpl; [destruct I|].
    assert (A := P w (or_introl eq_refl)). assert (B := H w (or_introl eq_refl)).
    destruct I as [->|I].
    - assert (C : fold_right Rplus 0 (map (fun w => pmf w * f w) s) <= fold_right Rplus 0 (map (fun w => pmf w * g w) s)).
      { clear IH A B L. assert (P' : forall x, In x s -> 0 < pmf x) by (intros; apply P; right; auto).
        assert (H' : forall x, In x s -> f x <= g x) by (intros; apply H; right; auto). clear P H.
        induction s as [|x s IH]; simpl; [lra|]. assert (A := P' x (or_introl eq_refl)). assert (B := H' x (or_introl eq_refl)).
        assert (C := IH (fun y Hy => P' y (or_intror Hy)) (fun y Hy => H' y (or_intror Hy))). nra. }
      nra.
    - assert (C := IH (fun x Hx => P x (or_intror Hx)) I (fun x Hx => H x (or_intror Hx)) L). nra.
  Qed.
  Lemma E_lt n : forall F G l0, draws space n l0 -> (forall l, draws space n l -> F l <= G l) -> F l0 < G l0 -> E n F < E n G.
  Proof.
    induction n as [|n IH]; intros F G l0 [L0 A0] H L; simpl; [destruct l0; [auto|simpl in L0; lia]|].
    destruct l0 as [|w0 l0]; [simpl in L0; lia|]. inversion A0 as [|? ? Hw0 Hl0]; subst.
    apply (E1_lt _ _ w0 Hw0).
    - intros w Hw. apply E_le. intros l [L1 A1]. apply H. split; [simpl; lia|constructor; auto].
    - apply (IH _ _ l0); auto.
      + split; auto.
      + intros l [L1 A1]. apply H. split; [simpl; lia|constructor; auto].
  Qed.
  (** Chebyshev *)
  Lemma chebyshev n (X : list O -> R) m eps : 0 < eps ->
    chance space pmf n (fun l => eps <= Rabs (X l - m)) (fun l => Rle_dec eps (Rabs (X l - m)))
    <= E n (fun l => (X l - m) ^ 2) / eps ^ 2.
  Proof.
    intros He. unfold chance. unfold Rdiv. rewrite Rmult_comm. rewrite <- (E_scale space pmf n). apply E_le.
    intros l _. cbv beta. assert (P : 0 < eps ^ 2) by nra. assert (Q : 0 < / eps ^ 2) by now apply Rinv_0_lt_compat.
    destruct (Rle_dec eps (Rabs (X l - m))) as [h|h].
    - assert (S : eps ^ 2 <= (X l - m) ^ 2). { rewrite <- (pow2_abs (X l - m)). apply pow_incr. lra. }
      apply (Rmult_le_compat_l (/ eps ^ 2)) in S; [|lra]. rewrite Rinv_l in S by lra. exact S.
    - apply Rmult_le_pos; [lra|]. apply pow2_ge_0.
  Qed.
End More.

Lemma E1_sq_found {O} (space : list O) (pmf p : O -> R) (found : O -> bool) : (forall w, In w space -> 0 < pmf w) ->
  let g := fun w => if found w then p w / pmf w else 0 in
  mean_of space pmf (fun w => g w * g w) = total (map (fun w => p w ^ 2 / pmf w) (filter found space)) /\
  mean_of space pmf g = total (map p (filter found space)).
Proof.
  intros Hpos g. split.
  - unfold mean_of. transitivity (Rsum (map (fun w => p w ^ 2 / pmf w) (filter found space))); [|reflexivity].
    rewrite (filter_sum found (fun w => p w ^ 2 / pmf w)).
    change (Rsum (map (fun w => pmf w * (g w * g w)) space) = Rsum (map (fun w => if found w then p w ^ 2 / pmf w else 0) space)).
    f_equal. apply map_ext_in. intros w Hw. unfold g. specialize (Hpos w Hw). destruct (found w); [field; lra|ring].
  - unfold mean_of. transitivity (Rsum (map p (filter found space))); [|reflexivity]. rewrite (filter_sum found p).
    change (Rsum (map (fun w => pmf w * g w) space) = Rsum (map (fun w => if found w then p w else 0) space)).
    f_equal. apply map_ext_in. intros w Hw. unfold g. specialize (Hpos w Hw). destruct (found w); [field; lra|ring].
Qed.

Lemma posterior_one {O} (space : list O) (like prior : O -> R) : let evidence := total (map (fun w => like w * prior w) space) in
  0 < evidence -> total (map (fun w => like w * prior w / evidence) space) = 1.
Proof.
  intros ev Hev. transitivity (total (map (fun w => like w * prior w) space) * / ev); [|unfold ev in *; apply Rinv_r; lra].
  generalize ev. clear. intros ev. unfold total. induction space as [|w s IH]; simpl; [ring|]. rewrite IH. unfold Rdiv. ring.
Qed.
Lemma posterior_mean {O} (space : list O) (like prior p : O -> R) : let evidence := total (map (fun w => like w * prior w) space) in
  (forall w, In w space -> 0 < like w /\ 0 < prior w /\ 0 < p w) -> 0 < evidence ->
  mean_of space (fun w => like w * prior w / evidence) (fun w => p w / prior w) = total (map (fun w => like w * p w) space) / evidence.
Proof.
  intros ev Hpos Hev. unfold mean_of. transitivity (total (map (fun w => like w * p w * / ev) space)).
  - f_equal. apply map_ext_in. intros w Hw. destruct (Hpos w Hw) as (P1 & P2 & P3). field. lra.
  - unfold Rdiv. generalize (/ ev). clear. intros c. unfold total. induction space as [|w s IH]; simpl; [ring|]. rewrite IH. ring.
Qed.

Lemma C99_efficiency_deviation_pf :
  forall (O : Type) (space : list O) (pmf p : O -> R) (found : O -> bool) bk prob dvc models n_events mg en parameters (data : list O -> injections) N, (1 <= N)%nat ->
  distribution space pmf ->
  (forall l, draws space N l ->
     dget "prior" (inj_data (data l)) = Some (map (fun w => Fin (pmf w)) (filter found l)) /\ inj_total (data l) = Some (Fin (INR N)) /\
     prob (inj_data (data l)) parameters = Ok (map (fun w => Fin (p w)) (filter found l))) ->
  let detectable := total (map p (filter found space)) in
  let V := total (map (fun w => p w ^ 2 / pmf w) (filter found space)) - detectable ^ 2 in
  exists mu var : list O -> R,
    (forall l, draws space N l -> exists v, resampling_init dvc models (data l) n_events mg en = Ok v /\ detection_efficiency bk prob v parameters = Ok (Fin (mu l), Fin (var l))) /\
    forall eps, 0 < eps ->
      chance space pmf N (fun l => eps <= Rabs (mu l - detectable)) (fun l => Rle_dec eps (Rabs (mu l - detectable)))
      <= V / (INR N * eps ^ 2).
Proof.
  intros O space pmf p found bk prob dvc models ne mg en pa data N HN Hd Hdata det V.
  destruct Hd as [Hpos Hone].
  set (g := fun w => if found w then p w / pmf w else 0). assert (N0 : INR N <> 0) by (apply not_0_INR; lia).
  exists (fun l => Rsum (map g l) / INR N), (fun l => Rsum (map (fun w => g w * g w) l) / (INR N * INR N) - Rsum (map g l) / INR N * (Rsum (map g l) / INR N) / INR N). split.
  - intros l Hl. destruct (Hdata l Hl) as (D1 & D2 & D3).
    assert (I : exists v, resampling_init dvc models (data l) ne mg en = Ok v) by (unfold resampling_init, dlookup; rewrite D1; eexists; reflexivity).
    destruct I as [v I]. exists v. split; [exact I|]. destruct (vt_init _ _ _ _ _ _ _ I) as (V1 & _ & _ & _ & _ & prior & V2 & V3). rewrite D2 in V3.
    rewrite (de_val bk prob v pa (map p (filter found l)) (map pmf (filter found l)) (INR N)); auto.
    + rewrite quot_map. rewrite (filter_sum found (fun w => p w / pmf w)). rewrite map_map. rewrite (filter_sum found (fun w => p w / pmf w * (p w / pmf w))).
      fold g. do 4 f_equal. f_equal. f_equal. apply map_ext. intros w. unfold g. destruct (found w); ring.
    + rewrite V1, D3, map_map. reflexivity.
    + rewrite V1, D1, map_map. reflexivity.
    + now rewrite !map_length.
    + apply Forall_map, Forall_filter'. eapply Forall_impl; [|exact (draws_pos space pmf N l Hpos Hl)]. intros w Hw. lra.
  - intros eps He. eapply Rle_trans; [apply chebyshev; auto|].
    assert (M2 : mean_of space pmf (fun w => g w * g w) = total (map (fun w => p w ^ 2 / pmf w) (filter found space))) by apply (E1_sq_found space pmf p found Hpos).
    assert (M1 : mean_of space pmf g = det) by apply (E1_sq_found space pmf p found Hpos).
    destruct (estimator space pmf Hone N g HN) as (_ & B & _). rewrite M1, M2 in B.
    cbv beta. rewrite B. right. unfold V. field. split; lra.
Qed.

Lemma C99_efficiency_converges_pf :
  forall (O : Type) (space : list O) (pmf p : O -> R) (found : O -> bool) bk prob dvc models n_events mg en parameters (data : nat -> list O -> injections),
  distribution space pmf ->
  (forall N l, draws space N l ->
     dget "prior" (inj_data (data N l)) = Some (map (fun w => Fin (pmf w)) (filter found l)) /\ inj_total (data N l) = Some (Fin (INR N)) /\
     prob (inj_data (data N l)) parameters = Ok (map (fun w => Fin (p w)) (filter found l))) ->
  let detectable := total (map p (filter found space)) in
  forall eps risk, 0 < eps -> 0 < risk ->
  exists N0, forall N, (N0 <= N)%nat -> exists mu var : list O -> R,
    (forall l, draws space N l -> exists v, resampling_init dvc models (data N l) n_events mg en = Ok v /\ detection_efficiency bk prob v parameters = Ok (Fin (mu l), Fin (var l))) /\
    chance space pmf N (fun l => eps <= Rabs (mu l - detectable)) (fun l => Rle_dec eps (Rabs (mu l - detectable))) <= risk.
Proof.
  intros O space pmf p found bk prob dvc models ne mg en pa data Hd Hdata det eps risk He Hr.
  set (V := total (map (fun w => p w ^ 2 / pmf w) (filter found space)) - det ^ 2).
  assert (HP : 0 < risk * eps ^ 2) by (apply Rmult_lt_0_compat; nra).
  destruct (nfloor_ex (Rmax 0 (V / (risk * eps ^ 2))) (Rmax_l _ _)) as [n [_ Hn]].
  exists (Datatypes.S n). intros N HN.
  destruct (C99_efficiency_deviation_pf O space pmf p found bk prob dvc models ne mg en pa (data N) N ltac:(lia) Hd (Hdata N)) as (mu & var & H1 & H2).
  exists mu, var. split; [exact H1|]. eapply Rle_trans; [apply (H2 eps He)|]. fold det V.
  assert (B : V / (risk * eps ^ 2) <= INR N).
  { apply Rle_trans with (INR n + 1); [|rewrite <- S_INR; apply le_INR; lia].
    apply Rle_trans with (Rmax 0 (V / (risk * eps ^ 2))); [apply Rmax_r|lra]. }
  assert (NP : 0 < INR N) by (apply lt_0_INR; lia).
  assert (E2 : 0 < eps ^ 2) by nra.
  apply (Rmult_le_reg_r (INR N * eps ^ 2)); [apply Rmult_lt_0_compat; auto|].
  replace (V / (INR N * eps ^ 2) * (INR N * eps ^ 2)) with (V / (risk * eps ^ 2) * (risk * eps ^ 2)) by (field; repeat split; lra).
  replace (risk * (INR N * eps ^ 2)) with (INR N * (risk * eps ^ 2)) by ring.
  apply Rmult_le_compat_r; lra.
Qed.

Lemma C99_evidence_deviation_pf :
  forall (O : Type) (space : list O) (like prior p : O -> R) bk prob parameters (L : list O -> likelihood) (W : list O -> list (list R)) K i, (1 <= K)%nat ->
  (forall w, In w space -> 0 < like w /\ 0 < prior w /\ 0 < p w) ->
  let evidence := total (map (fun w => like w * prior w) space) in
  let posterior := fun w => like w * prior w / evidence in
  0 < evidence ->
  (forall l, draws space K l -> weights_are prob (L l) parameters (W l) /\ positive_weights (L l) (W l) /\ li_samples (L l) = K /\
                                nth_error (W l) i = Some (map (fun w => p w / prior w) l)) ->
  let ratio := total (map (fun w => like w * p w) space) / evidence in
  let V := mean_of space posterior (fun w => (p w / prior w - ratio) ^ 2) in
  exists bf : list O -> R,
    (forall l, draws space K l -> exists ln_bfs variances, per_event bk prob (L l) parameters = Ok (ln_bfs, variances) /\
       nth_error ln_bfs i = Some (Fin (ln (bf l)))) /\
    forall eps, 0 < eps ->
      chance space posterior K (fun l => eps <= Rabs (bf l - ratio)) (fun l => Rle_dec eps (Rabs (bf l - ratio)))
      <= V / (INR K * eps ^ 2).
Proof.
  intros O space like prior p bk prob pa L W K i HK Hpos ev post Hev HL ratio V.
  set (g := fun w => p w / prior w). assert (N0 : INR K <> 0) by (apply not_0_INR; lia).
  assert (Hone : total (map post space) = 1) by (apply posterior_one; exact Hev).
  exists (fun l => Rsum (map g l) / INR K). split.
  - intros l Hl. destruct (HL l Hl) as (H1 & H2 & H3 & H4). destruct (C57_per_event_pf bk prob (L l) pa (W l) H1 H2) as (lb & va & E & E1 & E2 & _).
    exists (map Fin lb), (map Fin va). split; [exact E|]. destruct Hl as [Hl _].
    assert (MM : mean (map g l) = Rsum (map g l) / INR K) by (unfold mean; rewrite map_length, Hl; reflexivity).
    rewrite E1, !nth_error_map, H4. cbn [option_map]. fold g. now rewrite MM.
  - intros eps He.
    assert (PP : forall w, In w space -> 0 < post w).
    { intros w Hw. destruct (Hpos w Hw) as (P1 & P2 & _). apply Rdiv_lt_0_compat; auto. now apply Rmult_lt_0_compat. }
    eapply Rle_trans; [apply (chebyshev space post PP); auto|].
    assert (M : mean_of space post g = ratio) by (apply posterior_mean; auto).
    destruct (estimator space post Hone K g HK) as (_ & B & _). rewrite M in B. cbv beta. rewrite B.
    assert (EV : V = mean_of space post (fun w => g w * g w) - ratio * ratio).
    { unfold V. fold g. rewrite (E1_ext space post _ (fun w => 1 * (fun w => g w * g w) w + 1 * (fun w => (- 2 * ratio) * g w + (ratio * ratio) * (fun _ => 1) w) w)).
      - rewrite E1_lin, E1_lin, M, (E1_const space post Hone). ring.
      - intros w _. unfold g. ring. }
    rewrite EV. right. field. split; lra.
Qed.

Lemma C100_log_evidence_biased_refuted_pf :
  forall (O : Type) (space : list O) (like prior p : O -> R) bk prob parameters (L : list O -> likelihood) (W : list O -> list (list R)) K i, (1 <= K)%nat ->
  (forall w, In w space -> 0 < like w /\ 0 < prior w /\ 0 < p w) ->
  let evidence := total (map (fun w => like w * prior w) space) in
  let posterior := fun w => like w * prior w / evidence in
  0 < evidence ->
  (forall l, draws space K l -> weights_are prob (L l) parameters (W l) /\ positive_weights (L l) (W l) /\ li_samples (L l) = K /\
                                nth_error (W l) i = Some (map (fun w => p w / prior w) l)) ->
  let ratio := total (map (fun w => like w * p w) space) / evidence in
  exists ln_bf : list O -> R,
    (forall l, draws space K l -> exists ln_bfs variances, per_event bk prob (L l) parameters = Ok (ln_bfs, variances) /\
       nth_error ln_bfs i = Some (Fin (ln_bf l))) /\
    expectation space posterior K ln_bf <= ln ratio /\
    (forall u v, In u space -> In v space -> p u / prior u <> p v / prior v ->
       expectation space posterior K ln_bf < ln ratio).
Proof.
  intros O space like prior p bk prob pa L W K i HK Hpos ev post Hev HL ratio.
  set (g := fun w => p w / prior w). assert (N0 : INR K <> 0) by (apply not_0_INR; lia). assert (NP : 0 < INR K) by (apply lt_0_INR; lia).
  assert (Hone : total (map post space) = 1) by (apply posterior_one; exact Hev).
  assert (PP : forall w, In w space -> 0 < post w).
  { intros w Hw. destruct (Hpos w Hw) as (P1 & P2 & _). apply Rdiv_lt_0_compat; auto. now apply Rmult_lt_0_compat. }
  assert (PG : forall w, In w space -> 0 < g w) by (intros w Hw; destruct (Hpos w Hw) as (_ & P2 & P3); now apply Rdiv_lt_0_compat).
  assert (M : mean_of space post g = ratio) by (apply posterior_mean; auto).
  destruct (estimator space post Hone K g HK) as (A & _ & _). rewrite M in A.
  set (X := fun l => Rsum (map g l) / INR K) in *.
  assert (PX : forall l, draws space K l -> 0 < X l).
  { intros l [Hl Hin]. unfold X. apply Rdiv_lt_0_compat; auto. apply Rsum_pos.
    - destruct l; [simpl in Hl; lia|discriminate].
    - apply Forall_map. eapply Forall_impl; [|exact Hin]. intros; now apply PG. }
  assert (PR : 0 < ratio).
  { destruct space as [|w0 s] eqn:Es; [unfold total in Hone; simpl in Hone; lra|]. rewrite <- Es in *.
    rewrite <- M. apply Rle_lt_trans with (mean_of space post (fun _ => 0)).
    - rewrite (E1_const space post Hone). lra.
    - apply (E1_lt space post PP _ _ w0); rewrite ?Es; simpl; auto.
      + intros w Hw. left. apply PG. rewrite Es. exact Hw.
      + apply PG. rewrite Es. now left. }
  assert (J : forall x, 0 < x -> ln x <= ln ratio + (x - ratio) / ratio /\ (x <> ratio -> ln x < ln ratio + (x - ratio) / ratio)).
  { intros x Hx. assert (Q : 0 < x / ratio) by (apply Rdiv_lt_0_compat; auto).
    assert (EL : ln x = ln ratio + ln (x / ratio)) by (rewrite <- ln_mult by auto; f_equal; field; lra).
    assert (E0 : (x - ratio) / ratio = x / ratio - 1) by (field; lra). rewrite E0, EL.
    assert (B : x <> ratio -> ln (x / ratio) < x / ratio - 1).
    { intros Hn. assert (Hy : ln (x / ratio) <> 0).
      { intros Z. apply Hn. assert (T : exp (ln (x / ratio)) = exp 0) by now rewrite Z. rewrite exp_ln, exp_0 in T by auto.
        replace x with (x / ratio * ratio) by (field; lra). rewrite T. ring. }
      assert (T := exp_ineq1 _ Hy). rewrite exp_ln in T by auto. lra. }
    destruct (Req_dec x ratio) as [->|Hn].
    - split; [|intros; exfalso; lra]. replace (ratio / ratio) with 1 by (field; lra). rewrite ln_1. lra.
    - specialize (B Hn). split; [lra|intros; lra]. }
  assert (EJ : expectation space post K (fun l => ln ratio + (X l - ratio) / ratio) = ln ratio).
  { rewrite (E_ext space post K _ (fun l => (ln ratio - 1) + (/ ratio) * X l)) by (intros; field; lra).
    rewrite (E_shift space post Hone), (E_scale space post), A. field. lra. }
  exists (fun l => ln (X l)). split; [|split].
  - intros l Hl. destruct (HL l Hl) as (H1 & H2 & H3 & H4). destruct (C57_per_event_pf bk prob (L l) pa (W l) H1 H2) as (lb & va & E & E1 & E2 & _).
    exists (map Fin lb), (map Fin va). split; [exact E|]. destruct Hl as [Hl _].
    assert (MM : mean (map g l) = Rsum (map g l) / INR K) by (unfold mean; rewrite map_length, Hl; reflexivity).
    rewrite E1, !nth_error_map, H4. cbn [option_map]. fold g. now rewrite MM.
  - rewrite <- EJ. apply (E_le space post PP). intros l Hl. apply J, PX, Hl.
  - intros u v Hu Hv Hne. rewrite <- EJ.
    assert (EW : exists w, In w space /\ g w <> ratio).
    { destruct (Req_dec (g u) ratio) as [E|E]; [|now exists u]. exists v. split; auto. intros E'. apply Hne. unfold g in *. lra. }
    destruct EW as [w [Hw Hg]].
    assert (DW : draws space K (repeat w K)).
    { split; [apply repeat_length|]. apply Forall_forall. intros x Hx. apply repeat_spec in Hx. now subst. }
    apply (E_lt space post PP K _ _ (repeat w K) DW).
    + intros l Hl. apply J, PX, Hl.
    + apply J; [now apply PX|]. unfold X.
      assert (MR : forall n, map g (repeat w n) = repeat (g w) n) by (induction n as [|n IH]; simpl; [reflexivity|now rewrite IH]). rewrite MR.
      assert (RS : forall n c, Rsum (repeat c n) = INR n * c).
      { induction n as [|n IH]; intros c; [simpl; ring|]. rewrite S_INR. cbn [repeat]. change (c + Rsum (repeat c n) = (INR n + 1) * c). rewrite IH. ring. }
      rewrite RS. replace (INR K * g w / INR K) with (g w) by (field; lra). exact Hg.
Qed.

