(** Proofs of the property theorems stated in [Props_convb]. *)
From Coq Require Import Reals Lra Lia Psatz String Bool.
From Coquelicot Require Import Coquelicot.
From Coq Require Import List.
From Verif Require Import Xf Py St Xf_facts Py_facts Calc Special Spec Utils_model Beta_facts Beta_moments
  Conversions_model SpecConv Conversions_facts conv_thms.
Import ListNotations.
Local Open Scope R_scope.
(** ** What one conversion leaves alone *)
Lemma idiv_frame v d s s' r p : idiv v d s = (s', r) -> v <> VRef p -> nth p (arrays s') [] = nth p (arrays s) [].
Proof.
  unfold idiv, sbind. destruct (read v s) as [s1 [a|e]] eqn:E1; pose proof (read_state _ _ _ _ E1); subst s1.
  - unfold slift. destruct (ndiv a d) as [x|e]; [|intros E; injection E as <- <-; auto].
    destruct v as [| | |q]; try (intros E; injection E as <- <-; auto; fail).
    destruct x; [intros E; injection E as <- <-; auto|].
    unfold sget. destruct (Nat.eqb _ _); intros E; injection E as <- <-; simpl; auto.
    intros N. apply nth_set_nth_other. congruence.
  - intros E; injection E as <- <-; auto.
Qed.
Lemma idiv_none v d s s' l : idiv v d s = (s', Ok l) -> v <> VNone.
Proof. intros E ->. discriminate E. Qed.
Lemma m2a_frame mu var am s s' r p : mu_var_max_to_alpha_beta_max mu var am s = (s', r) -> mu <> VRef p -> var <> VRef p ->
  nth p (arrays s') [] = nth p (arrays s) [].
Proof.
  intros E N1 N2. revert E. unfold mu_var_max_to_alpha_beta_max, sbind.
  destruct (read am s) as [s1 [a|e]] eqn:E1; pose proof (read_state _ _ _ _ E1); subst s1; [|intros E; injection E as <- <-; auto].
  destruct (idiv mu a s) as [s2 [l|e]] eqn:E2; pose proof (idiv_frame _ _ _ _ _ p E2 N1) as F2; [|intros E; injection E as <- <-; auto].
  destruct (read am s2) as [s3 [a'|e]] eqn:E3; pose proof (read_state _ _ _ _ E3); subst s3; [|intros E; injection E as <- <-; auto].
  match goal with |- context [slift ?r ?t] => let F := fresh "F" in
    destruct (slift r t) as [t1 [a2|?]] eqn:F; pose proof (slift_state _ _ _ _ F); subst t1; clear F end; [|intros E; injection E as <- <-; auto].
  destruct (idiv var a2 s2) as [s4 [l'|e]] eqn:E4; pose proof (idiv_frame _ _ _ _ _ p E4 N2) as F4; rewrite F2 in F4; [|intros E; injection E as <- <-; auto].
  destruct (lread l s4) as [s5 [m|e]] eqn:E5; pose proof (lread_state _ _ _ _ E5); subst s5; [|intros E; injection E as <- <-; auto].
  destruct (lread l' s4) as [s6 [v|e]] eqn:E6; pose proof (lread_state _ _ _ _ E6); subst s6; [|intros E; injection E as <- <-; auto].
  match goal with |- context [slift ?r ?t] => let F := fresh "F" in
    destruct (slift r t) as [t1 [?|?]] eqn:F; pose proof (slift_state _ _ _ _ F); subst t1; clear F end; [|intros E; injection E as <- <-; auto].
  match goal with |- context [slift ?r ?t] => let F := fresh "F" in
    destruct (slift r t) as [t1 [?|?]] eqn:F; pose proof (slift_state _ _ _ _ F); subst t1; clear F end;
    intros E; injection E as <- <-; auto.
Qed.
Lemma m2a_none mu var am s s' ab : mu_var_max_to_alpha_beta_max mu var am s = (s', Ok ab) -> mu <> VNone /\ var <> VNone /\ am <> VNone.
Proof.
  unfold mu_var_max_to_alpha_beta_max, sbind.
  destruct (read am s) as [s1 [a|e]] eqn:E1; [|discriminate]. assert (N0 : am <> VNone) by (intros ->; discriminate E1).
  destruct (idiv mu a s1) as [s2 [l|e]] eqn:E2; [|discriminate]. assert (N1 := idiv_none _ _ _ _ _ E2).
  destruct (read am s2) as [s3 [a'|e]] eqn:E3; [|discriminate].
  destruct (slift (binop fmul a' a') s3) as [s4 [a2|e]]; [|discriminate].
  destruct (idiv var a2 s4) as [s5 [l'|e]] eqn:E4; [|discriminate]. assert (N2 := idiv_none _ _ _ _ _ E4). auto.
Qed.

Section OneStep.
  Variables (D : list (dict pval)) (params : nat) (remove : bool) (suf : string) (P : dict pval).
  Hypothesis Hp : (params < List.length D)%nat.
  Hypothesis EP : nth params D [] = P.
  Lemma one_eq C s : dicts s = (D ++ [C])%list -> agree P C suf ->
    convert_one params (List.length D) remove suf s = if conv1 P suf then convert_step params (List.length D) remove suf s else (s, Ok (avail P suf, [])).
  Proof using Hp EP.
    intros Ds A. assert (HP : nth params (dicts s) [] = P) by (rewrite <- EP, Ds; apply app_nth1; auto).
    assert (HC : nth (List.length D) (dicts s) [] = C) by (rewrite Ds; apply nth_app_last).
    rewrite convert_one_cases by (rewrite HP, HC; auto). rewrite HP. unfold conv1, avail. destruct (needed P suf), (has_mu_sigma P suf); reflexivity.
  Qed.
  Lemma step_frame C s s' r p : dicts s = (D ++ [C])%list -> (p < List.length (arrays s))%nat ->
    dget (key "mu_chi" suf) P <> Some (VRef p) -> dget (key "sigma_chi" suf) P <> Some (VRef p) ->
    convert_step params (List.length D) remove suf s = (s', r) -> nth p (arrays s') [] = nth p (arrays s) [].
  Proof using Hp EP.
    intros Ds Lp N1 N2. assert (HP : nth params (dicts s) [] = P) by (rewrite <- EP, Ds; apply app_nth1; auto).
    unfold convert_step. unfold sbind at 1, dict_at at 1. rewrite HP. unfold sbind, slift, dlookup.
    destruct (dget (key "mu_chi" suf) P) as [vmu|] eqn:Em; [|intros E; injection E as <- <-; auto].
    destruct (dget (key "sigma_chi" suf) P) as [vsig|] eqn:Es; [|intros E; injection E as <- <-; auto].
    destruct (dget (key "amax" suf) P) as [vam|] eqn:Ea; [|intros E; injection E as <- <-; auto].
    destruct (mu_var_max_to_alpha_beta_max vmu vsig vam s) as [s1 [[a b]|e]] eqn:E1;
      pose proof (m2a_frame _ _ _ _ _ _ p E1 ltac:(congruence) ltac:(congruence)) as F1; [|intros E; injection E as <- <-; auto].
    destruct (m2a_dicts _ _ _ _ _ _ E1) as [D1 L1].
    destruct (alloc_spec a s1) as [va [s2 [-> [Na [D2 [[e2 L2] S2]]]]]]. destruct (alloc_spec b s2) as [vb [s3 [-> [Nb [D3 [[e3 L3] S3]]]]]].
    unfold dict_set, sret. simpl. intros E. injection E as <- <-. simpl. rewrite L3, L2, <- app_assoc, app_nth1 by lia. exact F1.
  Qed.
  Lemma step_len C s s' r : dicts s = (D ++ [C])%list -> convert_step params (List.length D) remove suf s = (s', Ok r) -> (List.length (arrays s) <= List.length (arrays s'))%nat.
  Proof using Hp EP.
    intros Ds E. apply convert_step_ok in E; [|lia|rewrite Ds, app_length; simpl; lia].
    destruct E as [va [vb [s1 [a [b [vmu [vsig [vam [G1 [G2 [G3 [G4 [G5 [G6 [Na [Nb [Er [Ed [ext Ea]]]]]]]]]]]]]]]]]]]. destruct (m2a_dicts _ _ _ _ _ _ G4) as [_ L]. rewrite Ea, app_length. lia.
  Qed.
  Lemma step_none C s s' r : dicts s = (D ++ [C])%list -> convert_step params (List.length D) remove suf s = (s', Ok r) ->
    forall base, In base ["mu_chi"; "sigma_chi"; "amax"]%string -> usable (base ++ suf) P.
  Proof using Hp EP.
    intros Ds E. assert (HP : nth params (dicts s) [] = P) by (rewrite <- EP, Ds; apply app_nth1; auto).
    apply convert_step_ok in E; [|lia|rewrite Ds, app_length; simpl; lia].
    destruct E as [va [vb [s1 [a [b [vmu [vsig [vam [G1 [G2 [G3 [G4 _]]]]]]]]]]]]. rewrite HP in G1, G2, G3. destruct (m2a_none _ _ _ _ _ _ G4) as (N1 & N2 & N3).
    intros base [<-|[<-|[<-|[]]]]; [exists vmu|exists vsig|exists vam]; auto.
  Qed.
End OneStep.

(** The whole call, as a chain of at most three steps. *)
Section Whole.
  Variables (params : nat) (remove : bool) (s : store).
  Hypothesis Hp : (params < List.length (dicts s))%nat.
  Let D := dicts s.
  Let P := nth params D [].
  Let s0 := mkStore (arrays s) (D ++ [P])%list.
  Let go suf t := if conv1 P suf then convert_step params (List.length D) remove suf t else (t, Ok (avail P suf, [])).
  Lemma whole_eq : convert_to_beta_parameters params remove s =
    match go "_1" s0 with
    | (s1, Err e) => (s1, Err e)
    | (s1, Ok (d1, k1)) =>
        match go "_2" s1 with
        | (s2, Err e) => (s2, Err e)
        | (s2, Ok (d2, k2)) =>
            if d1 || d2 then (s2, Ok (List.length D, (k1 ++ k2)%list))
            else match go "" s2 with
                 | (s3, Err e) => (s3, Err e)
                 | (s3, Ok (d3, k3)) => (s3, Ok (List.length D, (k1 ++ k2 ++ k3)%list))
                 end
        end
    end.
  Proof using Hp.
    unfold convert_to_beta_parameters. unfold sbind at 1. unfold dict_copy at 1. fold D P s0.
    assert (D0 : dicts s0 = (D ++ [P])%list) by reflexivity.
    unfold sbind at 1.
    unfold go at 1. rewrite <- (one_eq D params remove "_1" P Hp eq_refl P s0 D0 (agree_refl _ _)).
    destruct (convert_one params (List.length D) remove "_1" s0) as [s1 [[d1 k1]|e1]] eqn:E1; [|reflexivity].
    destruct (step_ok D params remove "_1" P Hp eq_refl P s0 s1 d1 k1 D0 (agree_refl _ _) E1) as [H1d [H1k [C1 [H1 [G1 [N1 [R1 [I1 V1]]]]]]]].
    assert (A2 : agree P C1 "_2") by (eapply agree_other; [exact G1|nokey]).
    unfold sbind at 1. unfold go at 1. rewrite <- (one_eq D params remove "_2" P Hp eq_refl C1 s1 H1 A2).
    destruct (convert_one params (List.length D) remove "_2" s1) as [s2 [[d2 k2]|e2]] eqn:E2; [|reflexivity].
    destruct (step_ok D params remove "_2" P Hp eq_refl C1 s1 s2 d2 k2 H1 A2 E2) as [H2d [H2k [C2 [H2 [G2 [N2 [R2 [I2 V2]]]]]]]].
    destruct (d1 || d2) eqn:Ed; [reflexivity|]. apply orb_false_elim in Ed as [Ed1 Ed2]. subst d1 d2.
    assert (B1 : conv1 P "_1" = false). { unfold avail in Ed1. apply orb_false_elim in Ed1 as [_ Ed1]. unfold conv1. rewrite Ed1. apply andb_false_r. }
    assert (B2 : conv1 P "_2" = false). { unfold avail in Ed2. apply orb_false_elim in Ed2 as [_ Ed2]. unfold conv1. rewrite Ed2. apply andb_false_r. }
    assert (A3 : agree P C2 ""). { repeat split; rewrite G2, G1; auto. }
    unfold sbind at 1. unfold go at 1. rewrite <- (one_eq D params remove "" P Hp eq_refl C2 s2 H2 A3).
    destruct (convert_one params (List.length D) remove "" s2) as [s3 [[d3 k3]|e3]] eqn:E3; reflexivity.
  Qed.
  Lemma go_dicts suf t t' r C : dicts t = (D ++ [C])%list -> go suf t = (t', Ok r) -> exists C', dicts t' = (D ++ [C'])%list.
  Proof using Hp.
    intros Dt. unfold go. destruct (conv1 P suf); [|intros E; injection E as <- <-; eauto]. intros E. apply convert_step_ok in E; [|unfold D; lia|rewrite Dt, app_length; simpl; lia].
    destruct E as [va [vb [s1 [a [b [vmu [vsig [vam [_ [_ [_ [_ [_ [_ [_ [_ [_ [Ed _]]]]]]]]]]]]]]]]]]. rewrite Dt, set_nth_app_last in Ed. eauto.
  Qed.
  Lemma go_flag suf t t' d k C : dicts t = (D ++ [C])%list -> go suf t = (t', Ok (d, k)) -> d = avail P suf.
  Proof using Hp.
    intros Dt. unfold go. destruct (conv1 P suf) eqn:Ec; [|intros E; injection E as <- <- <-; reflexivity]. intros E. apply convert_step_ok in E; [|unfold D; lia|rewrite Dt, app_length; simpl; lia].
    destruct E as [va [vb [s1 [a [b [vmu [vsig [vam [_ [_ [_ [_ [_ [_ [_ [_ [Er _]]]]]]]]]]]]]]]]]. injection Er as -> _. unfold conv1 in Ec. unfold avail. apply andb_prop in Ec as [_ ->]. now rewrite orb_true_r.
  Qed.
  Lemma go_frame suf t t' r C p : dicts t = (D ++ [C])%list -> (p < List.length (arrays t))%nat -> (conv1 P suf = true -> dget (key "mu_chi" suf) P <> Some (VRef p) /\ dget (key "sigma_chi" suf) P <> Some (VRef p)) ->
    go suf t = (t', r) -> nth p (arrays t') [] = nth p (arrays t) [].
  Proof using Hp.
    intros Dt Lp N. unfold go. destruct (conv1 P suf); [|intros E; injection E as <- <-; reflexivity]. destruct (N eq_refl). now apply (step_frame D params remove suf P Hp eq_refl C).
  Qed.
  Lemma go_len suf t t' r C : dicts t = (D ++ [C])%list -> go suf t = (t', Ok r) -> (List.length (arrays t) <= List.length (arrays t'))%nat.
  Proof using Hp. intros Dt. unfold go. destruct (conv1 P suf); [|intros E; injection E as <- <-; lia]. now apply (step_len D params remove suf P Hp eq_refl C). Qed.
  Lemma go_none suf t t' r C : dicts t = (D ++ [C])%list -> go suf t = (t', Ok r) -> conv1 P suf = true -> forall base, In base ["mu_chi"; "sigma_chi"; "amax"]%string -> usable (base ++ suf) P.
  Proof using Hp. intros Dt E Ec. unfold go in E. rewrite Ec in E. now apply (step_none D params remove suf P Hp eq_refl C t t' r). Qed.
  Lemma whole_none s' c added : convert_to_beta_parameters params remove s = (s', Ok (c, added)) -> forall suf, In suf (plan P) ->
    forall base, In base ["mu_chi"; "sigma_chi"; "amax"]%string -> usable (base ++ suf) P.
  Proof using Hp.
    rewrite whole_eq. destruct (go "_1" s0) as [s1 [[d1 k1]|e1]] eqn:E1; [|discriminate]. destruct (go_dicts "_1" s0 s1 _ P eq_refl E1) as [C1 H1]. assert (F1 := go_flag "_1" s0 s1 d1 k1 P eq_refl E1).
    destruct (go "_2" s1) as [s2 [[d2 k2]|e2]] eqn:E2; [|discriminate]. destruct (go_dicts "_2" s1 s2 _ C1 H1 E2) as [C2 H2]. assert (F2 := go_flag "_2" s1 s2 d2 k2 C1 H1 E2).
    intros E suf Hs. apply plan_iff in Hs as [[-> Hc]|[[-> Hc]|(-> & A1 & A2 & Hc)]].
    - exact (go_none "_1" s0 s1 _ P eq_refl E1 Hc). - exact (go_none "_2" s1 s2 _ C1 H1 E2 Hc).
    - rewrite F1, F2, A1, A2 in E. simpl in E. destruct (go "" s2) as [s3 [[d3 k3]|e3]] eqn:E3; [|discriminate]. exact (go_none "" s2 s3 _ C2 H2 E3 Hc).
  Qed.
  Lemma whole_frame s' r p : convert_to_beta_parameters params remove s = (s', r) -> (p < List.length (arrays s))%nat ->
    (forall suf, In suf (plan P) -> dget (key "mu_chi" suf) P <> Some (VRef p) /\ dget (key "sigma_chi" suf) P <> Some (VRef p)) -> nth p (arrays s') [] = nth p (arrays s) [].
  Proof using Hp.
    intros E Lp N. rewrite whole_eq in E.
    assert (N1 : conv1 P "_1" = true -> dget (key "mu_chi" "_1") P <> Some (VRef p) /\ dget (key "sigma_chi" "_1") P <> Some (VRef p)) by (intros H; apply N, plan_iff; left; auto).
    assert (N2 : conv1 P "_2" = true -> dget (key "mu_chi" "_2") P <> Some (VRef p) /\ dget (key "sigma_chi" "_2") P <> Some (VRef p)) by (intros H; apply N, plan_iff; right; left; auto).
    destruct (go "_1" s0) as [s1 [[d1 k1]|e1]] eqn:E1; assert (F1 := go_frame "_1" s0 s1 _ P p eq_refl Lp N1 E1); [|injection E as <- <-; exact F1].
    destruct (go_dicts "_1" s0 s1 _ P eq_refl E1) as [C1 H1]. assert (L1 := go_len "_1" s0 s1 _ P eq_refl E1). assert (A1 := go_flag "_1" s0 s1 d1 k1 P eq_refl E1). simpl arrays in F1, L1.
    destruct (go "_2" s1) as [s2 [[d2 k2]|e2]] eqn:E2; assert (F2 := go_frame "_2" s1 s2 _ C1 p H1 ltac:(lia) N2 E2); rewrite F1 in F2; [|injection E as <- <-; exact F2].
    destruct (go_dicts "_2" s1 s2 _ C1 H1 E2) as [C2 H2]. assert (L2 := go_len "_2" s1 s2 _ C1 H1 E2). assert (A2 := go_flag "_2" s1 s2 d2 k2 C1 H1 E2).
    destruct (d1 || d2) eqn:Ed; [injection E as <- <-; exact F2|]. apply orb_false_elim in Ed as [Ed1 Ed2].
    assert (N3 : conv1 P "" = true -> dget (key "mu_chi" "") P <> Some (VRef p) /\ dget (key "sigma_chi" "") P <> Some (VRef p)) by (intros H; apply N, plan_iff; right; right; repeat split; congruence).
    destruct (go "" s2) as [s3 [[d3 k3]|e3]] eqn:E3; assert (F3 := go_frame "" s2 s3 _ C2 p H2 ltac:(lia) N3 E3); injection E as <- <-; congruence.
  Qed.
  Lemma whole_single suf t r : plan P = [suf] -> convert_step params (List.length D) remove suf s0 = (t, Ok r) ->
    exists added, convert_to_beta_parameters params remove s = (t, Ok (List.length D, added)).
  Proof using Hp.
    intros Pl E. destruct r as [d k]. assert (Hin : In suf (plan P)) by (rewrite Pl; now left).
    assert (NO : forall x, x <> suf -> ~ In x (plan P)) by (intros x N; rewrite Pl; intros [->|[]]; congruence).
    rewrite whole_eq. destruct (conv1 P "_1") eqn:C1.
    - assert (suf = "_1"%string). { assert (H : In "_1"%string (plan P)) by (apply plan_iff; auto). rewrite Pl in H. destruct H as [->|[]]; reflexivity. } subst suf.
      assert (C2 : conv1 P "_2" = false). { destruct (conv1 P "_2") eqn:C; [|reflexivity]. exfalso. apply (NO "_2"%string); [discriminate|]. apply plan_iff. auto. }
      assert (GE : go "_1" s0 = (t, Ok (d, k))) by (unfold go; rewrite C1; exact E). rewrite GE. assert (A1 := go_flag "_1" s0 t d k P eq_refl GE).
      unfold go. rewrite C2. unfold conv1 in C1. apply andb_prop in C1 as [_ C1]. unfold avail in A1. rewrite C1, orb_true_r in A1. subst d. simpl. eauto.
    - unfold go at 1. rewrite C1. destruct (conv1 P "_2") eqn:C2.
      + assert (suf = "_2"%string). { assert (H : In "_2"%string (plan P)) by (apply plan_iff; auto). rewrite Pl in H. destruct H as [->|[]]; reflexivity. } subst suf.
        assert (GE : go "_2" s0 = (t, Ok (d, k))) by (unfold go; rewrite C2; exact E). rewrite GE. assert (A2 := go_flag "_2" s0 t d k P eq_refl GE).
        unfold conv1 in C2. apply andb_prop in C2 as [_ C2]. unfold avail in A2. rewrite C2, orb_true_r in A2. subst d. rewrite orb_true_r. eauto.
      + unfold go at 1. rewrite C2. apply plan_iff in Hin as [[-> H]|[[-> H]|(-> & A1 & A2 & H)]]; try congruence. rewrite A1, A2. simpl orb. cbv iota.
        unfold go. rewrite H, E. eauto.
  Qed.
End Whole.
Lemma C18_none_rejected_pf :
  forall params remove s s' c added, (params < List.length (dicts s))%nat ->
  convert_to_beta_parameters params remove s = (s', Ok (c, added)) ->
  let P := nth params (dicts s) [] in
  forall suf, selected P suf -> usable ("mu_chi" ++ suf) P /\ usable ("sigma_chi" ++ suf) P /\ usable ("amax" ++ suf) P.
Proof.
  intros params remove s s' c added Hp E P suf Hs. apply selected_plan in Hs. assert (W := whole_none params remove s Hp s' c added E suf Hs).
  repeat split; apply W; simpl; auto.
Qed.

Lemma C18_array_values_pf :
  forall params remove s suf pm pv pa (l : list (R * R * R)), (params < List.length (dicts s))%nat ->
  let P := nth params (dicts s) [] in
  selected P suf -> (forall suf', selected P suf' -> suf' = suf) ->
  dget ("mu_chi" ++ suf)%string P = Some (VRef pm) -> dget ("sigma_chi" ++ suf)%string P = Some (VRef pv) -> dget ("amax" ++ suf)%string P = Some (VRef pa) ->
  NoDup [pm; pv; pa] -> (pm < List.length (arrays s))%nat -> (pv < List.length (arrays s))%nat -> (pa < List.length (arrays s))%nat ->
  nth pm (arrays s) [] = map (fun t => Fin (fst (fst t))) l -> nth pv (arrays s) [] = map (fun t => Fin (snd (fst t))) l -> nth pa (arrays s) [] = map (fun t => Fin (snd t)) l ->
  (forall mu var am, In (mu, var, am) l -> am <> 0 /\ var <> 0) ->
  exists s' c added ia ib, convert_to_beta_parameters params remove s = (s', Ok (c, added)) /\
    dget ("alpha_chi" ++ suf)%string (nth c (dicts s') []) = Some (VRef ia) /\ dget ("beta_chi" ++ suf)%string (nth c (dicts s') []) = Some (VRef ib) /\
    ia <> ib /\ (List.length (arrays s) <= ia)%nat /\ (List.length (arrays s) <= ib)%nat /\
    nth ia (arrays s') [] = map (fun '(mu, var, am) => Fin ((mu * mu * (am - mu) - mu * var) / (am * var))) l /\
    nth ib (arrays s') [] = map (fun '(mu, var, am) => Fin ((mu * ((am - mu) * (am - mu)) - (am - mu) * var) / (am * var))) l.
Proof.
  intros params remove s suf pm pv pa l Hp P Hs Hu Gm Gv Ga ND Lm Lv La Em Ev Ea H.
  assert (Pl : plan P = [suf]).
  { assert (I1 := proj1 (selected_plan P suf) Hs). assert (I2 : forall x, In x (plan P) -> x = suf) by (intros x X; apply Hu; now apply selected_plan).
    unfold plan in *. destruct (conv1 P "_1"), (conv1 P "_2"), (negb (avail P "_1") && negb (avail P "_2") && conv1 P ""); simpl in *;
    try (destruct I1 as [->|[]]; reflexivity); try (destruct I1; fail).
    all: exfalso; first [assert (X := I2 "_1"%string ltac:(simpl; auto)); assert (Y := I2 "_2"%string ltac:(simpl; auto)); congruence
                        |assert (X := I2 "_1"%string ltac:(simpl; auto)); assert (Y := I2 ""%string ltac:(simpl; auto)); congruence
                        |assert (X := I2 "_2"%string ltac:(simpl; auto)); assert (Y := I2 ""%string ltac:(simpl; auto)); congruence]. }
  set (D := dicts s) in *. set (s0 := mkStore (arrays s) (D ++ [P])%list).
  assert (Npv : pm <> pv) by (intros ->; inversion ND as [|? ? N _]; apply N; simpl; auto). assert (Npa : pm <> pa) by (intros ->; inversion ND as [|? ? N _]; apply N; simpl; auto).
  destruct (m2a_col (fun t : R * R * R => fst (fst t)) (fun t => snd (fst t)) snd l s0 pm pv pa) as (s1 & E1 & _ & _); auto.
  - intros [[mu var] am] T. simpl. now apply (H mu).
  - unfold col. f_equal. exact Em. - unfold col. f_equal. exact Ev. - unfold col. f_equal. exact Ea.
  - destruct (m2a_dicts _ _ _ _ _ _ E1) as [D1 L1]. simpl in D1, L1.
    assert (HP : nth params (dicts s0) [] = P) by (simpl; apply app_nth1; auto).
    assert (ST : exists t r, convert_step params (List.length D) remove suf s0 = (t, Ok r) /\
       dget (key "alpha_chi" suf) (nth (List.length D) (dicts t) []) = Some (VRef (List.length (arrays s))) /\ dget (key "beta_chi" suf) (nth (List.length D) (dicts t) []) = Some (VRef (S (List.length (arrays s)))) /\
       arrays t = ((arrays s1 ++ [map (fun t => Fin (m2a_alpha (fst (fst t)) (snd (fst t)) (snd t))) l]) ++ [map (fun t => Fin (m2a_beta (fst (fst t)) (snd (fst t)) (snd t))) l])%list).
    { unfold convert_step. unfold sbind at 1, dict_at at 1. rewrite HP. unfold sbind, slift, dlookup. unfold key. rewrite Gm, Gv, Ga, E1.
      unfold alloc, col, sbind, sget, sput, sret, dict_set. cbn [arrays dicts]. do 2 eexists. split; [reflexivity|]. cbn [arrays dicts]. rewrite D1, app_length, L1. simpl List.length. rewrite Nat.add_1_r.
      rewrite !(nth_set_nth_same _ (List.length D)) by (rewrite ?set_nth_length, app_length; simpl; lia).
      split; [|split; [|reflexivity]]; [rewrite dget_dset_other by (apply not_eq_sym, key_ab)|]; apply dget_dset_same. }
    destruct ST as (t & r & E & Ka & Kb & At). destruct (whole_single params remove s Hp suf t r Pl E) as [added W]. fold D in W.
    exists t, (List.length D), added, (List.length (arrays s)), (S (List.length (arrays s))). split; [exact W|]. split; [exact Ka|]. split; [exact Kb|]. split; [lia|]. split; [lia|]. split; [lia|]. rewrite At.
    split.
    + rewrite app_nth1 by (rewrite app_length; simpl; lia). rewrite <- L1, nth_app_last. apply map_ext_in. intros [[mu var] am] T. destruct (H mu var am T). f_equal. simpl. unfold m2a_alpha. field. auto.
    + rewrite <- L1. replace (S (List.length (arrays s1))) with (List.length (arrays s1 ++ [map (fun t => Fin (m2a_alpha (fst (fst t)) (snd (fst t)) (snd t))) l])%list) by (rewrite app_length; simpl; lia).
      rewrite nth_app_last. apply map_ext_in. intros [[mu var] am] T. destruct (H mu var am T). f_equal. simpl. unfold m2a_beta. field. auto.
Qed.

Lemma C20_only_mu_and_sigma_arrays_partial_pf :
  forall params remove s s' r p, (params < List.length (dicts s))%nat ->
  convert_to_beta_parameters params remove s = (s', r) -> (p < List.length (arrays s))%nat ->
  let P := nth params (dicts s) [] in
  (forall suf, selected P suf -> dget ("mu_chi" ++ suf) P <> Some (VRef p) /\ dget ("sigma_chi" ++ suf) P <> Some (VRef p)) ->
  nth p (arrays s') [] = nth p (arrays s) [].
Proof.
  intros params remove s s' r p Hp E Lp P N. apply (whole_frame params remove s Hp s' r p E Lp). intros suf Hs. apply N. now apply selected_plan.
Qed.

