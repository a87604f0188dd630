(** Proofs of the property theorems stated in [Props_prob]. *)
From Coq Require Import Reals Lra Lia Psatz String Bool.
From Coquelicot Require Import Coquelicot.
From Coq Require Import List.
From Verif Require Import Xf Py Xf_facts Py_facts Calc Np Np_facts Vt_model vt_thms Hyperpe_model SpecHyper hypera_thms SpecProb.
Import ListNotations.
Local Open Scope R_scope.

Section Prob.
  Context {O : Type} (space : list O) (pmf : O -> R).
  Hypothesis one : total (map pmf space) = 1.
  Notation E1 := (mean_of space pmf).
  Notation E := (expectation space pmf).

  Lemma E1_ext f g : (forall w, In w space -> f w = g w) -> E1 f = E1 g.
  Proof. intros H. unfold mean_of. f_equal. apply map_ext_in. intros w Hw. now rewrite H. Qed.
  Lemma total_lin {A} (f g : A -> R) a b l : total (map (fun x => a * f x + b * g x) l) = a * total (map f l) + b * total (map g l).
  Proof. induction l as [|x l IH]; simpl; [ring|]. unfold total in *. simpl in *. rewrite IH. ring. Qed.
  Lemma E1_lin f g a b : E1 (fun w => a * f w + b * g w) = a * E1 f + b * E1 g.
  Proof. unfold mean_of. rewrite <- total_lin. f_equal. apply map_ext. intros. ring. Qed.
  Lemma E1_const c : E1 (fun _ => c) = c.
  Proof.
    unfold mean_of. transitivity (c * total (map pmf space)); [|rewrite one; ring]. generalize space. intros l. unfold total. induction l as [|w l IH]; simpl; [ring|]. rewrite IH. ring.
  Qed.
  Lemma E_ext n : forall F G, (forall l, draws space n l -> F l = G l) -> E n F = E n G.
  Proof.
    induction n as [|n IH]; intros F G H; simpl; [apply H; split; auto|]. apply E1_ext. intros w Hw. apply IH. intros l [L A]. apply H. split; [simpl; lia|constructor; auto].
  Qed.
  Lemma E_lin n : forall F G a b, E n (fun l => a * F l + b * G l) = a * E n F + b * E n G.
  Proof.
    induction n as [|n IH]; intros F G a b; simpl; [reflexivity|]. rewrite <- E1_lin. apply E1_ext. intros w _. apply IH.
  Qed.
  Lemma E_const n c : E n (fun _ => c) = c.
  Proof. induction n as [|n IH]; simpl; [reflexivity|]. transitivity (E1 (fun _ => c)); [|apply E1_const]. apply E1_ext. intros w _. apply IH. Qed.
  Lemma E_shift n c F : E n (fun l => c + F l) = c + E n F.
  Proof. rewrite (E_ext n _ (fun l => 1 * (fun _ => c) l + 1 * F l)) by (intros; ring). rewrite E_lin, E_const. ring. Qed.
  Lemma E_scale n c F : E n (fun l => c * F l) = c * E n F.
  Proof. rewrite (E_ext n _ (fun l => c * F l + 0 * F l)) by (intros; ring). rewrite E_lin. ring. Qed.

  Lemma E_sum n g : E n (fun l => Rsum (map g l)) = INR n * E1 g.
  Proof.
    induction n as [|n IH]; [simpl; ring|]. rewrite S_INR. cbn [expectation]. 
    rewrite (E1_ext _ (fun w => 1 * g w + 1 * (fun _ => INR n * E1 g) w)).
    - rewrite E1_lin, E1_const. ring.
    - intros w _. change (E n (fun l => g w + Rsum (map g l)) = 1 * g w + 1 * (INR n * E1 g)). rewrite E_shift, IH. ring.
  Qed.
  Lemma E_sum_sq n g : E n (fun l => Rsum (map g l) * Rsum (map g l)) = INR n * E1 (fun w => g w * g w) + INR n * (INR n - 1) * (E1 g * E1 g).
  Proof.
    induction n as [|n IH]; [simpl; ring|]. rewrite S_INR. cbn [expectation].
    rewrite (E1_ext _ (fun w => 1 * (fun w => g w * g w) w + 1 * (fun w => (2 * (INR n * E1 g)) * g w + 1 * (fun _ => INR n * E1 (fun w => g w * g w) + INR n * (INR n - 1) * (E1 g * E1 g)) w) w)).
    - rewrite E1_lin, E1_lin, E1_const. ring.
    - intros w _. change (E n (fun l => (g w + Rsum (map g l)) * (g w + Rsum (map g l))) =
        1 * (g w * g w) + 1 * (2 * (INR n * E1 g) * g w + 1 * (INR n * E1 (fun w => g w * g w) + INR n * (INR n - 1) * (E1 g * E1 g)))).
      rewrite (E_ext n _ (fun l => g w * g w + ((2 * g w) * (fun l => Rsum (map g l)) l + 1 * (fun l => Rsum (map g l) * Rsum (map g l)) l))) by (intros; ring).
      rewrite E_shift, E_lin, E_sum, IH. ring.
  Qed.
  (** The sample mean over [N] draws and the plug-in variance. *)
  Lemma estimator n g : (1 <= n)%nat -> let m := E1 g in let V := (E1 (fun w => g w * g w) - m * m) / INR n in
    E n (fun l => Rsum (map g l) / INR n) = m /\
    E n (fun l => (Rsum (map g l) / INR n - m) ^ 2) = V /\
    E n (fun l => Rsum (map (fun w => g w * g w) l) / (INR n * INR n) - Rsum (map g l) / INR n * (Rsum (map g l) / INR n) / INR n) = (1 - / INR n) * V.
  Proof.
    intros Hn m V. assert (N0 : INR n <> 0) by (apply not_0_INR; lia). split; [|split].
    - rewrite (E_ext n _ (fun l => / INR n * (fun l => Rsum (map g l)) l)) by (intros; unfold Rdiv; ring). rewrite E_scale, E_sum. unfold m. field. auto.
    - rewrite (E_ext n _ (fun l => m * m + ((- 2 * m / INR n) * (fun l => Rsum (map g l)) l + / (INR n * INR n) * (fun l => Rsum (map g l) * Rsum (map g l)) l))) by (intros; field; auto).
      rewrite E_shift, E_lin, E_sum, E_sum_sq. unfold V, m. field. auto.
    - rewrite (E_ext n _ (fun l => / (INR n * INR n) * (fun l => Rsum (map (fun w => g w * g w) l)) l + - / (INR n * INR n * INR n) * (fun l => Rsum (map g l) * Rsum (map g l)) l)) by (intros; field; auto).
      rewrite E_lin, (E_sum n (fun w => g w * g w)), E_sum_sq. unfold V, m. field. auto.
  Qed.
  Lemma draws_pos n l : (forall w, In w space -> 0 < pmf w) -> draws space n l -> Forall (fun w => 0 < pmf w) l.
  Proof. intros H [_ A]. eapply Forall_impl; [|exact A]. auto. Qed.
End Prob.
Lemma filter_sum {O} (found : O -> bool) (h : O -> R) l : Rsum (map h (filter found l)) = Rsum (map (fun w => if found w then h w else 0) l).
Proof. induction l as [|w l IH]; simpl; [reflexivity|]. destruct (found w); simpl; unfold Rsum in *; simpl; rewrite IH; ring. Qed.
Lemma quot_map {O} (p q : O -> R) l : Rquot (map p l) (map q l) = map (fun w => p w / q w) l.
Proof. unfold Rquot. induction l as [|w l IH]; simpl; [reflexivity|]. now rewrite IH. Qed.
Lemma Forall_filter' {O} (P : O -> Prop) f l : Forall P l -> Forall P (filter f l).
Proof. intros H. apply Forall_forall. intros x Hx. apply filter_In in Hx. revert x Hx. rewrite Forall_forall in H. intros x [Hx _]. auto. Qed.

Lemma C94_efficiency_unbiased_pf :
  forall (O : Type) (space : list O) (pmf p : O -> R) (found : O -> bool) bk prob dvc models n_events mg en parameters (data : list O -> injections) N, (1 <= N)%nat ->
  distribution space pmf ->
  (forall l, draws space N l ->
     dget "prior" (inj_data (data l)) = Some (map (fun w => Fin (pmf w)) (filter found l)) /\ inj_total (data l) = Some (Fin (INR N)) /\
     prob (inj_data (data l)) parameters = Ok (map (fun w => Fin (p w)) (filter found l))) ->
  exists mu var : list O -> R,
    (forall l, draws space N l -> exists v, resampling_init dvc models (data l) n_events mg en = Ok v /\ detection_efficiency bk prob v parameters = Ok (Fin (mu l), Fin (var l))) /\
    let detectable := total (map p (filter found space)) in
    expectation space pmf N mu = detectable /\
    expectation space pmf N var = (1 - / INR N) * expectation space pmf N (fun l => (mu l - detectable) ^ 2).
Proof.
  intros O space pmf p found bk prob dvc models ne mg en pa data N HN [Hpos Hone] Hdata.
  set (g := fun w => if found w then p w / pmf w else 0). assert (N0 : INR N <> 0) by (apply not_0_INR; lia).
  exists (fun l => Rsum (map g l) / INR N), (fun l => Rsum (map (fun w => g w * g w) l) / (INR N * INR N) - Rsum (map g l) / INR N * (Rsum (map g l) / INR N) / INR N). split.
  - intros l Hl. destruct (Hdata l Hl) as (D1 & D2 & D3).
    assert (I : exists v, resampling_init dvc models (data l) ne mg en = Ok v) by (unfold resampling_init, dlookup; rewrite D1; eexists; reflexivity).
    destruct I as [v I]. exists v. split; [exact I|]. destruct (vt_init _ _ _ _ _ _ _ I) as (V1 & _ & _ & _ & _ & prior & V2 & V3). rewrite D2 in V3.
    rewrite (de_val bk prob v pa (map p (filter found l)) (map pmf (filter found l)) (INR N)); auto.
    + rewrite quot_map. rewrite (filter_sum found (fun w => p w / pmf w)). rewrite map_map. rewrite (filter_sum found (fun w => p w / pmf w * (p w / pmf w))).
      fold g. do 4 f_equal. f_equal. f_equal. apply map_ext. intros w. unfold g. destruct (found w); ring.
    + rewrite V1, D3, map_map. reflexivity.
    + rewrite V1, D1, map_map. reflexivity.
    + now rewrite !map_length.
    + apply Forall_map, Forall_filter'. eapply Forall_impl; [|exact (draws_pos space pmf N l Hpos Hl)]. intros w Hw. lra.
  - assert (M : mean_of space pmf g = total (map p (filter found space))).
    { unfold mean_of. transitivity (Rsum (map p (filter found space))); [|reflexivity]. rewrite (filter_sum found p). change (Rsum (map (fun w => pmf w * g w) space) = Rsum (map (fun w => if found w then p w else 0) space)). f_equal. apply map_ext_in. intros w Hw.
      unfold g. specialize (Hpos w Hw). destruct (found w); [field; lra|ring]. }
    destruct (estimator space pmf Hone N g HN) as (A & B & C). rewrite M in A, B, C. cbv zeta. split; [exact A|]. rewrite B. exact C.
Qed.

Lemma C95_evidence_unbiased_pf :
  forall (O : Type) (space : list O) (like prior p : O -> R) bk prob parameters (L : list O -> likelihood) (W : list O -> list (list R)) K i, (1 <= K)%nat ->
  (forall w, In w space -> 0 < like w /\ 0 < prior w /\ 0 < p w) ->
  let evidence := total (map (fun w => like w * prior w) space) in
  let posterior := fun w => like w * prior w / evidence in
  0 < evidence ->
  (forall l, draws space K l -> weights_are prob (L l) parameters (W l) /\ positive_weights (L l) (W l) /\ li_samples (L l) = K /\
                                nth_error (W l) i = Some (map (fun w => p w / prior w) l)) ->
  exists bf var : list O -> R,
    (forall l, draws space K l -> exists ln_bfs variances, per_event bk prob (L l) parameters = Ok (ln_bfs, variances) /\
       nth_error ln_bfs i = Some (Fin (ln (bf l))) /\ nth_error variances i = Some (Fin (var l))) /\
    let ratio := total (map (fun w => like w * p w) space) / evidence in
    expectation space posterior K bf = ratio /\
    expectation space posterior K (fun l => var l * bf l ^ 2) = (1 - / INR K) * expectation space posterior K (fun l => (bf l - ratio) ^ 2).
Proof.
  intros O space like prior p bk prob pa L W K i HK Hpos ev post Hev HL.
  set (g := fun w => p w / prior w). assert (N0 : INR K <> 0) by (apply not_0_INR; lia).
  assert (Hone : total (map post space) = 1).
  { unfold post. transitivity (total (map (fun w => like w * prior w) space) * / ev); [|unfold ev in *; apply Rinv_r; lra]. generalize space. intros s. unfold total. induction s as [|w s IH]; simpl; [ring|]. rewrite IH. unfold Rdiv. ring. }
  exists (fun l => Rsum (map g l) / INR K), (fun l => (Rsum (map (fun w => g w * g w) l) / INR K - (Rsum (map g l) / INR K) ^ 2) / (INR K * (Rsum (map g l) / INR K) ^ 2)). split.
  - intros l Hl. destruct (HL l Hl) as (H1 & H2 & H3 & H4). destruct (C57_per_event_pf bk prob (L l) pa (W l) H1 H2) as (lb & va & E & E1 & E2 & _).
    exists (map Fin lb), (map Fin va). split; [exact E|]. destruct Hl as [Hl _].
    assert (MM : mean (map g l) = Rsum (map g l) / INR K) by (unfold mean; rewrite map_length, Hl; reflexivity).
    rewrite E1, E2, !nth_error_map, H4. cbn [option_map]. fold g. rewrite MM, H3. split; [reflexivity|].
    unfold squares, mean. rewrite !map_map, map_length, Hl. reflexivity.
  - assert (M : mean_of space post g = total (map (fun w => like w * p w) space) / ev).
    { unfold mean_of. transitivity (total (map (fun w => like w * p w * / ev) space)).
      - f_equal. apply map_ext_in. intros w Hw. destruct (Hpos w Hw) as (P1 & P2 & P3). unfold post, g. field. lra.
      - unfold Rdiv. generalize space. intros s. unfold total. induction s as [|w s IH]; simpl; [ring|]. rewrite IH. ring. }
    destruct (estimator space post Hone K g HK) as (A & B & C). rewrite M in A, B, C. cbv zeta. split; [exact A|]. rewrite B, <- C.
    apply E_ext. intros l Hl.
    assert (P : 0 < Rsum (map g l)).
    { destruct Hl as [Hl Hin]. destruct l as [|w l]; [simpl in Hl; lia|]. assert (Hg : forall w, In w space -> 0 < g w) by (intros u Hu; destruct (Hpos u Hu) as (_ & P2 & P3); unfold g; apply Rdiv_lt_0_compat; auto).
      inversion Hin as [|? ? Hw Hr]; subst. assert (G := Hg w Hw). assert (Z : 0 <= Rsum (map g l)). { apply Rsum_nonneg. apply Forall_map. eapply Forall_impl; [|exact Hr]. intros u Hu. left. auto. }
      change (0 < g w + Rsum (map g l)). lra. }
    field. split; lra.
Qed.

