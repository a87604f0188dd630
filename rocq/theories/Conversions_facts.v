(** Proofs about the parameter conversions. *)
From Coq Require Import Reals Lra Lia Psatz String Bool.
From Coquelicot Require Import Coquelicot.
From Coq Require Import List.
From Verif Require Import Xf Py St Xf_facts Py_facts Conversions_model.
Import ListNotations.
Local Open Scope R_scope.

(** ** set_nth *)
Lemma set_nth_length {A} (l : list A) n a : List.length (set_nth l n a) = List.length l.
Proof. revert n; induction l as [|b l IH]; intros [|n]; simpl; auto. Qed.
Lemma nth_set_nth_same {A} (l : list A) n a d : (n < List.length l)%nat -> nth n (set_nth l n a) d = a.
Proof. revert n; induction l as [|b l IH]; intros [|n] H; simpl in *; try lia; auto. apply IH; lia. Qed.
Lemma nth_set_nth_other {A} (l : list A) n m a d : n <> m -> nth m (set_nth l n a) d = nth m l d.
Proof. revert n m; induction l as [|b l IH]; intros [|n] [|m] H; simpl; auto; try lia. Qed.
Lemma set_nth_nth {A} (l : list A) n d : set_nth l n (nth n l d) = l.
Proof. revert n; induction l as [|b l IH]; intros [|n]; simpl; auto. now rewrite IH. Qed.

(** ** Scalars *)
Definition m2a_alpha (mu var am : R) : R :=
  let m := mu / am in let v := var / (am * am) in (m * m * (1 - m) - m * v) / v.
Definition m2a_beta (mu var am : R) : R :=
  let m := mu / am in let v := var / (am * am) in (m * ((1 - m) * (1 - m)) - (1 - m) * v) / v.

Lemma ndiv_fin x y p q : y <> 0 -> ndiv (Sc (Fin x) p) (Sc (Fin y) q) = Ok (Sc (Fin (x / y)) (p && q)).
Proof.
  intros H. unfold ndiv. rewrite Reqb_false by auto.
  destruct p, q; unfold binop; rewrite fdiv_fin by auto; reflexivity.
Qed.

Lemma m2a_scalar s mu var am p q r : am <> 0 -> var <> 0 ->
  exists f1 f2,
  mu_var_max_to_alpha_beta_max (VNum (Fin mu) p) (VNum (Fin var) q) (VNum (Fin am) r) s
  = (s, Ok (Sc (Fin (m2a_alpha mu var am)) f1, Sc (Fin (m2a_beta mu var am)) f2)).
Proof.
  intros Ha Hv.
  assert (Ha2 : am * am <> 0) by (apply Rmult_integral_contrapositive; auto).
  assert (Hv2 : var / (am * am) <> 0).
  { apply Rmult_integral_contrapositive; split; auto. now apply Rinv_neq_0_compat. }
  unfold mu_var_max_to_alpha_beta_max, idiv, read, sbind, slift, sret, lread.
  rewrite ndiv_fin by auto. unfold binop at 1. rewrite fmul_fin. cbv beta iota zeta.
  rewrite ndiv_fin by auto. cbv beta iota zeta.
  unfold binop, bind. autorewrite with xf. rewrite !ndiv_fin by auto. cbv beta iota zeta.
  do 2 eexists. reflexivity.
Qed.

Lemma a2m_scalar a b m p q r : a + b <> 0 -> a + b + 1 <> 0 ->
  exists f1 f2,
  alpha_beta_max_to_mu_var_max (Sc (Fin a) p) (Sc (Fin b) q) (Sc (Fin m) r)
  = Ok (Sc (Fin (a / (a + b) * m)) f1,
        Sc (Fin (a * b / ((a + b) * (a + b) * (a + b + 1)) * (m * m))) f2, Sc (Fin m) r).
Proof.
  intros H1 H2. unfold alpha_beta_max_to_mu_var_max.
  unfold binop at 1. rewrite fadd_fin. unfold bind at 1. rewrite ndiv_fin by auto.
  assert (H3 : (a + b) * (a + b) * (a + b + 1) <> 0)
    by (apply Rmult_integral_contrapositive; split; auto; apply Rmult_integral_contrapositive; auto).
  unfold binop, bind. autorewrite with xf. rewrite ndiv_fin by auto.
  autorewrite with xf. do 2 eexists. reflexivity.
Qed.

(** ** Effects *)
Lemma slift_state {S A} (x : result A) (s s' : S) r : slift x s = (s', r) -> s' = s.
Proof. unfold slift; intros E; injection E; auto. Qed.
Lemma read_state v s s' r : read v s = (s', r) -> s' = s.
Proof. destruct v; simpl; intros E; injection E; auto. Qed.
Lemma lread_state v s s' r : lread v s = (s', r) -> s' = s.
Proof. destruct v; simpl; intros E; injection E; auto. Qed.

Lemma idiv_dicts v d s s' r : idiv v d s = (s', r) -> dicts s' = dicts s /\
  List.length (arrays s') = List.length (arrays s).
Proof.
  unfold idiv, sbind. destruct (read v s) as [s1 [a|e]] eqn:E1; pose proof (read_state _ _ _ _ E1); subst s1.
  - unfold slift. destruct (ndiv a d) as [x|e]; [|intros E; injection E as <- <-; auto].
    destruct v; try (intros E; injection E as <- <-; auto; fail).
    destruct x; [intros E; injection E as <- <-; auto|].
    unfold sget. destruct (Nat.eqb _ _); intros E; injection E as <- <-; simpl; auto.
    rewrite set_nth_length; auto.
  - intros E; injection E as <- <-; auto.
Qed.

Lemma m2a_dicts mu var am s s' r : mu_var_max_to_alpha_beta_max mu var am s = (s', r) ->
  dicts s' = dicts s /\ List.length (arrays s') = List.length (arrays s).
Proof.
  unfold mu_var_max_to_alpha_beta_max, sbind.
  destruct (read am s) as [s1 [a|e]] eqn:E1; pose proof (read_state _ _ _ _ E1); subst s1;
    [|intros E; injection E as <- <-; auto].
  destruct (idiv mu a s) as [s2 [l|e]] eqn:E2; pose proof (idiv_dicts _ _ _ _ _ E2) as [D2 L2];
    [|intros E; injection E as <- <-; auto].
  destruct (read am s2) as [s3 [a'|e]] eqn:E3; pose proof (read_state _ _ _ _ E3); subst s3;
    [|intros E; injection E as <- <-; auto].
  match goal with |- context [slift ?r ?t] => destruct (slift r t) as [t1 [a2|e]] eqn:F1 end;
    pose proof (slift_state _ _ _ _ F1); subst t1; [|intros E; injection E as <- <-; auto].
  destruct (idiv var a2 s2) as [s4 [l'|e]] eqn:E4; pose proof (idiv_dicts _ _ _ _ _ E4) as [D4 L4];
    [|intros E; injection E as <- <-; split; congruence].
  destruct (lread l s4) as [s5 [m|e]] eqn:E5; pose proof (lread_state _ _ _ _ E5); subst s5;
    [|intros E; injection E as <- <-; split; congruence].
  destruct (lread l' s4) as [s6 [v|e]] eqn:E6; pose proof (lread_state _ _ _ _ E6); subst s6;
    [|intros E; injection E as <- <-; split; congruence].
  match goal with |- context [slift ?r ?t] => let F := fresh "F" in
    destruct (slift r t) as [t1 [?|?]] eqn:F; pose proof (slift_state _ _ _ _ F); subst t1; clear F end;
    [|intros E; injection E as <- <-; split; congruence].
  match goal with |- context [slift ?r ?t] => let F := fresh "F" in
    destruct (slift r t) as [t1 [?|?]] eqn:F; pose proof (slift_state _ _ _ _ F); subst t1; clear F end;
    intros E; injection E as <- <-; split; congruence.
Qed.

Lemma idiv_noref v d s s' r : (forall p, v <> VRef p) -> idiv v d s = (s', r) ->
  s' = s /\ (forall l, r = Ok l -> exists x, l = LVal x).
Proof.
  intros N. unfold idiv, sbind. destruct (read v s) as [s1 [a|e]] eqn:E1; pose proof (read_state _ _ _ _ E1); subst s1.
  - unfold slift. destruct (ndiv a d) as [x|e]; [|intros E; injection E as <- <-; split; auto; discriminate].
    destruct v; try (intros E; injection E as <- <-; split; auto; intros ? E2; injection E2 as <-; eauto; fail).
    exfalso; eapply N; eauto.
  - intros E; injection E as <- <-; split; auto; discriminate.
Qed.

(** Without array references for mu and var, the store is untouched. *)
Lemma m2a_noref mu var am s s' r : (forall p, mu <> VRef p) -> (forall p, var <> VRef p) ->
  mu_var_max_to_alpha_beta_max mu var am s = (s', r) -> s' = s.
Proof.
  intros N1 N2. unfold mu_var_max_to_alpha_beta_max, sbind.
  destruct (read am s) as [s1 [a|e]] eqn:E1; pose proof (read_state _ _ _ _ E1); subst s1;
    [|intros E; injection E as <- <-; auto].
  destruct (idiv mu a s) as [s2 [l|e]] eqn:E2; pose proof (idiv_noref _ _ _ _ _ N1 E2) as [-> _];
    [|intros E; injection E as <- <-; auto].
  destruct (read am s) as [s3 [a'|e]] eqn:E3; pose proof (read_state _ _ _ _ E3); subst s3;
    [|intros E; injection E as <- <-; auto].
  match goal with |- context [slift ?r ?t] => destruct (slift r t) as [t1 [a2|e]] eqn:F1 end;
    pose proof (slift_state _ _ _ _ F1); subst t1; [|intros E; injection E as <- <-; auto].
  destruct (idiv var a2 s) as [s4 [l'|e]] eqn:E4; pose proof (idiv_noref _ _ _ _ _ N2 E4) as [-> _];
    [|intros E; injection E as <- <-; auto].
  destruct (lread l s) as [s5 [m|e]] eqn:E5; pose proof (lread_state _ _ _ _ E5); subst s5;
    [|intros E; injection E as <- <-; auto].
  destruct (lread l' s) as [s6 [v|e]] eqn:E6; pose proof (lread_state _ _ _ _ E6); subst s6;
    [|intros E; injection E as <- <-; auto].
  match goal with |- context [slift ?r ?t] => let F := fresh "F" in
    destruct (slift r t) as [t1 [?|?]] eqn:F; pose proof (slift_state _ _ _ _ F); subst t1; clear F end;
    [|intros E; injection E as <- <-; auto].
  match goal with |- context [slift ?r ?t] => let F := fresh "F" in
    destruct (slift r t) as [t1 [?|?]] eqn:F; pose proof (slift_state _ _ _ _ F); subst t1; clear F end;
    intros E; injection E as <- <-; auto.
Qed.

(** ** Pure description of [_convert] *)
Definition key (base suf : string) : string := (base ++ suf)%string.
Arguments key : simpl never.
Definition needed (P : dict pval) (suf : string) : bool :=
  match dget (key "alpha_chi" suf) P, dget (key "beta_chi" suf) P with
  | Some VNone, Some _ => true
  | Some _, Some VNone => true
  | Some _, Some _ => false
  | _, _ => true
  end.
Definition has_mu_sigma (P : dict pval) (suf : string) : bool :=
  dmem (key "mu_chi" suf) P && dmem (key "sigma_chi" suf) P.

Definition agree (P C : dict pval) (suf : string) : Prop :=
  dget (key "alpha_chi" suf) C = dget (key "alpha_chi" suf) P /\
  dget (key "beta_chi" suf) C = dget (key "beta_chi" suf) P /\
  dget (key "mu_chi" suf) C = dget (key "mu_chi" suf) P /\
  dget (key "sigma_chi" suf) C = dget (key "sigma_chi" suf) P.

Lemma needed_code P C suf : agree P C suf ->
  (if negb (dmem (key "alpha_chi" suf) P) || negb (dmem (key "beta_chi" suf) P) then true
   else is_none (dget (key "alpha_chi" suf) C) || is_none (dget (key "beta_chi" suf) C)) = needed P suf.
Proof.
  intros [-> [-> _]]. unfold needed, dmem.
  destruct (dget (key "alpha_chi" suf) P) as [[| | |]|], (dget (key "beta_chi" suf) P) as [[| | |]|]; reflexivity.
Qed.

Definition convert_step (params conv : nat) (remove : bool) (suf : string) : ST store (bool * list string) :=
  P <~ dict_at params ;;
  vmu <~ slift (dlookup (key "mu_chi" suf) P) ;;
  vsigma <~ slift (dlookup (key "sigma_chi" suf) P) ;;
  vamax <~ slift (dlookup (key "amax" suf) P) ;;
  ' (a, b) <~ mu_var_max_to_alpha_beta_max vmu vsigma vamax ;;
  va <~ alloc a ;;
  vb <~ alloc b ;;
  _ <~ dict_set conv (key "alpha_chi" suf) va ;;
  _ <~ dict_set conv (key "beta_chi" suf) vb ;;
  sret (true, if remove then [key "alpha_chi" suf; key "beta_chi" suf] else []).

Lemma convert_one_cases params conv remove suf s :
  agree (nth params (dicts s) []) (nth conv (dicts s) []) suf ->
  convert_one params conv remove suf s =
  if needed (nth params (dicts s) []) suf then
    if has_mu_sigma (nth params (dicts s) []) suf then convert_step params conv remove suf s
    else (s, Ok (false, []))
  else (s, Ok (true, [])).
Proof.
  intros A. unfold convert_one. fold (key "alpha_chi" suf) (key "beta_chi" suf) (key "mu_chi" suf)
    (key "sigma_chi" suf) (key "amax" suf).
  unfold sbind at 1. unfold dict_at at 1. unfold sbind at 1. unfold dict_at at 1.
  rewrite needed_code by auto.
  destruct (needed (nth params (dicts s) []) suf); [|reflexivity].
  destruct A as [_ [_ [A1 A2]]].
  assert (B : dmem (key "mu_chi" suf) (nth conv (dicts s) []) && dmem (key "sigma_chi" suf) (nth conv (dicts s) [])
    = has_mu_sigma (nth params (dicts s) []) suf) by (unfold has_mu_sigma, dmem; rewrite A1, A2; reflexivity).
  rewrite B. destruct (has_mu_sigma _ _); reflexivity.
Qed.

Lemma alloc_spec x s : exists v s', alloc x s = (s', Ok v) /\ v <> VNone /\ dicts s' = dicts s /\
  (exists ext, arrays s' = (arrays s ++ ext)%list) /\
  (forall y p, x = Sc y p -> v = VNum y p /\ s' = s).
Proof.
  destruct x as [y p|l]; simpl; do 2 eexists; split; try reflexivity; split; try discriminate; simpl.
  - split; auto. split; [exists []; now rewrite app_nil_r|]. intros ? ? E; injection E as -> ->; auto.
  - split; auto. split; [eauto|]. discriminate.
Qed.

(** The converted case: what the state looks like afterwards. *)
Lemma convert_step_ok params conv remove suf s s' r : params <> conv -> (conv < List.length (dicts s))%nat ->
  convert_step params conv remove suf s = (s', Ok r) ->
  exists va vb s1 a b vmu vsig vam,
    dget (key "mu_chi" suf) (nth params (dicts s) []) = Some vmu /\
    dget (key "sigma_chi" suf) (nth params (dicts s) []) = Some vsig /\
    dget (key "amax" suf) (nth params (dicts s) []) = Some vam /\
    mu_var_max_to_alpha_beta_max vmu vsig vam s = (s1, Ok (a, b)) /\
    (forall y p, a = Sc y p -> va = VNum y p) /\ (forall y p, b = Sc y p -> vb = VNum y p) /\
    va <> VNone /\ vb <> VNone /\
    r = (true, if remove then [key "alpha_chi" suf; key "beta_chi" suf] else []) /\
    dicts s' = set_nth (dicts s) conv
       (dset (key "beta_chi" suf) vb (dset (key "alpha_chi" suf) va (nth conv (dicts s) []))) /\
    exists ext, arrays s' = (arrays s1 ++ ext)%list.
Proof.
  intros Hpc Hc. unfold convert_step. unfold sbind at 1, dict_at at 1.
  unfold sbind, slift, dlookup.
  destruct (dget (key "mu_chi" suf) _) as [vmu|] eqn:Em; [|discriminate].
  destruct (dget (key "sigma_chi" suf) _) as [vsig|] eqn:Es; [|discriminate].
  destruct (dget (key "amax" suf) _) as [vam|] eqn:Ea; [|discriminate].
  destruct (mu_var_max_to_alpha_beta_max vmu vsig vam s) as [s1 [[a b]|e]] eqn:E1; [|discriminate].
  destruct (m2a_dicts _ _ _ _ _ _ E1) as [D1 L1].
  destruct (alloc_spec a s1) as [va [s2 [-> [Na [D2 [[e2 L2] S2]]]]]].
  destruct (alloc_spec b s2) as [vb [s3 [-> [Nb [D3 [[e3 L3] S3]]]]]].
  unfold dict_set, sret. simpl. intros E. injection E as <- <-.
  exists va, vb, s1, a, b, vmu, vsig, vam. repeat split; auto.
  - intros y p H; apply (S2 y p H).
  - intros y p H; apply (S3 y p H).
  - simpl. rewrite D3, D2, D1. rewrite nth_set_nth_same by auto.
    clear. generalize (dset (key "alpha_chi" suf) va (nth conv (dicts s) [])). intros d.
    generalize (dset (key "beta_chi" suf) vb d). intros d'. revert conv.
    induction (dicts s) as [|x l IH]; intros [|c]; simpl; auto. now rewrite IH.
  - simpl. rewrite L3, L2. exists (e2 ++ e3)%list. now rewrite app_assoc.
Qed.

(** ** One step, and the whole function *)
Definition conv1 P suf := needed P suf && has_mu_sigma P suf.
Definition avail P suf := negb (needed P suf) || has_mu_sigma P suf.
Definition akeys (suf : string) : list string := [key "alpha_chi" suf; key "beta_chi" suf].
Definition norefs (P : dict pval) (suf : string) : Prop :=
  forall p, dget (key "mu_chi" suf) P <> Some (VRef p) /\ dget (key "sigma_chi" suf) P <> Some (VRef p).
Definition scalars (P : dict pval) (suf : string) : Prop :=
  (forall v, dget (key "mu_chi" suf) P = Some v -> exists x p, v = VNum (Fin x) p) /\
  (forall v, dget (key "sigma_chi" suf) P = Some v -> exists x p, v = VNum (Fin x) p /\ x <> 0) /\
  (forall v, dget (key "amax" suf) P = Some v -> exists x p, v = VNum (Fin x) p /\ x <> 0).

Lemma nth_app_last {A} (l : list A) x d : nth (List.length l) (l ++ [x])%list d = x.
Proof. rewrite app_nth2 by lia. now rewrite Nat.sub_diag. Qed.
Lemma set_nth_app_last {A} (l : list A) x y : set_nth (l ++ [x])%list (List.length l) y = (l ++ [y])%list.
Proof. induction l; simpl; congruence. Qed.

Lemma key_ab suf : key "beta_chi" suf <> key "alpha_chi" suf.
Proof. unfold key; simpl; intros E; discriminate E. Qed.

Section Step.
  Variables (D : list (dict pval)) (params : nat) (remove : bool) (suf : string) (P : dict pval).
  Hypothesis Hp : (params < List.length D)%nat.
  Hypothesis EP : nth params D [] = P.

  Lemma step_ok C s s' d k : dicts s = (D ++ [C])%list -> agree P C suf ->
    convert_one params (List.length D) remove suf s = (s', Ok (d, k)) ->
    d = avail P suf /\ k = (if conv1 P suf && remove then akeys suf else []) /\
    exists C', dicts s' = (D ++ [C'])%list /\
      (forall x, conv1 P suf = false \/ ~ In x (akeys suf) -> dget x C' = dget x C) /\
      (conv1 P suf = true -> forall x, In x (akeys suf) -> exists v, dget x C' = Some v /\ v <> VNone) /\
      (norefs P suf -> exists ext, arrays s' = (arrays s ++ ext)%list) /\
      (conv1 P suf = false -> s' = s) /\
      (conv1 P suf = true -> forall mu var am p q r,
         dget (key "mu_chi" suf) P = Some (VNum (Fin mu) p) ->
         dget (key "sigma_chi" suf) P = Some (VNum (Fin var) q) -> var <> 0 ->
         dget (key "amax" suf) P = Some (VNum (Fin am) r) -> am <> 0 ->
         exists f1 f2, dget (key "alpha_chi" suf) C' = Some (VNum (Fin (m2a_alpha mu var am)) f1) /\
                       dget (key "beta_chi" suf) C' = Some (VNum (Fin (m2a_beta mu var am)) f2)).
  Proof using Hp EP.
    intros Ds A. assert (HP : nth params (dicts s) [] = P) by (rewrite <- EP, Ds; apply app_nth1; auto).
    assert (HC : nth (List.length D) (dicts s) [] = C) by (rewrite Ds; apply nth_app_last).
    rewrite convert_one_cases by (rewrite HP, HC; auto). rewrite HP.
    unfold avail, conv1. destruct (needed P suf) eqn:En; simpl.
    2:{ intros E; injection E as <- <- <-. repeat split; auto. exists C. repeat split; auto; try discriminate.
        intros _. exists []. now rewrite app_nil_r. }
    destruct (has_mu_sigma P suf) eqn:Eh.
    2:{ intros E; injection E as <- <- <-. repeat split; auto. exists C. repeat split; auto; try discriminate.
        intros _. exists []. now rewrite app_nil_r. }
    intros E. apply convert_step_ok in E; [|lia|rewrite Ds, app_length; simpl; lia].
    destruct E as [va [vb [s1 [a [b [vmu [vsig [vam [G1 [G2 [G3 [G4 [G5 [G6 [Na [Nb [Er [Ed [ext Ea]]]]]]]]]]]]]]]]]]].
    rewrite HP in G1, G2, G3. injection Er as -> ->. repeat split.
    rewrite HC, Ds, set_nth_app_last in Ed.
    eexists. split; [exact Ed|]. split; [|split; [|split; [|split]]].
    - intros x [H|H]; [discriminate|]. unfold akeys in H. simpl in H.
      rewrite !dget_dset_other; auto.
    - intros _ x [<-|[<-|[]]].
      + exists va. split; auto. rewrite dget_dset_other by (apply not_eq_sym, key_ab). apply dget_dset_same.
      + exists vb. split; auto. apply dget_dset_same.
    - intros N. exists ext. rewrite Ea. f_equal. f_equal. eapply m2a_noref; [| |exact G4].
      + intros q ->. destruct (N q) as [N1 _]; auto.
      + intros q ->. destruct (N q) as [_ N1]; auto.
    - discriminate.
    - intros _ mu var am p q r H1 H2 Hv H3 Ham.
      rewrite G1 in H1; injection H1 as ->. rewrite G2 in H2; injection H2 as ->.
      rewrite G3 in H3; injection H3 as ->.
      destruct (m2a_scalar s mu var am p q r Ham Hv) as [f1 [f2 E]]. rewrite E in G4. injection G4 as _ <- <-.
      exists f1, f2. rewrite dget_dset_other by (apply not_eq_sym, key_ab). rewrite !dget_dset_same.
      now rewrite (G5 _ _ eq_refl), (G6 _ _ eq_refl).
  Qed.

  Lemma step_err C s s' e : dicts s = (D ++ [C])%list -> agree P C suf ->
    convert_one params (List.length D) remove suf s = (s', Err e) ->
    conv1 P suf = true /\
    (scalars P suf -> dget (key "amax" suf) P = None /\ e = KeyError (key "amax" suf)).
  Proof using Hp EP.
    intros Ds A. assert (HP : nth params (dicts s) [] = P) by (rewrite <- EP, Ds; apply app_nth1; auto).
    assert (HC : nth (List.length D) (dicts s) [] = C) by (rewrite Ds; apply nth_app_last).
    rewrite convert_one_cases by (rewrite HP, HC; auto). rewrite HP. unfold conv1.
    destruct (needed P suf); [|discriminate]. destruct (has_mu_sigma P suf) eqn:Eh; [|discriminate].
    intros E. split; auto. intros [S1 [S2 S3]]. revert E.
    unfold convert_step. unfold sbind at 1, dict_at at 1. rewrite HP.
    unfold has_mu_sigma, dmem in Eh. unfold sbind, slift, dlookup.
    destruct (dget (key "mu_chi" suf) P) as [vmu|] eqn:Em; [|discriminate].
    destruct (dget (key "sigma_chi" suf) P) as [vsig|] eqn:Es; [|discriminate].
    destruct (dget (key "amax" suf) P) as [vam|] eqn:Ea; [|intros E; injection E as _ <-; auto].
    destruct (S1 _ eq_refl) as [mu [p ->]]. destruct (S2 _ eq_refl) as [var [q [-> Hv]]].
    destruct (S3 _ eq_refl) as [am [r [-> Ham]]].
    destruct (m2a_scalar s mu var am p q r Ham Hv) as [f1 [f2 ->]].
    simpl. discriminate.
  Qed.

  Lemma step_missing C s : dicts s = (D ++ [C])%list -> agree P C suf ->
    conv1 P suf = true -> dget (key "amax" suf) P = None ->
    convert_one params (List.length D) remove suf s = (s, Err (KeyError (key "amax" suf))).
  Proof using Hp EP.
    intros Ds A Hc Ha. assert (HP : nth params (dicts s) [] = P) by (rewrite <- EP, Ds; apply app_nth1; auto).
    assert (HC : nth (List.length D) (dicts s) [] = C) by (rewrite Ds; apply nth_app_last).
    rewrite convert_one_cases by (rewrite HP, HC; auto). rewrite HP. unfold conv1 in Hc.
    apply andb_prop in Hc as [-> Hh]. rewrite Hh.
    unfold convert_step. unfold sbind at 1, dict_at at 1. rewrite HP.
    unfold has_mu_sigma, dmem in Hh. unfold sbind, slift, dlookup.
    destruct (dget (key "mu_chi" suf) P) as [vmu|] eqn:Em; [|discriminate].
    destruct (dget (key "sigma_chi" suf) P) as [vsig|] eqn:Es; [|discriminate].
    now rewrite Ha.
  Qed.
End Step.

Lemma agree_refl P suf : agree P P suf.
Proof. repeat split. Qed.

Definition plan (P : dict pval) : list string :=
  ((if conv1 P "_1" then ["_1"%string] else []) ++ (if conv1 P "_2" then ["_2"%string] else []) ++
  (if negb (avail P "_1") && negb (avail P "_2") && conv1 P "" then [""%string] else []))%list.

Lemma agree_other P C suf suf' b :
  (forall x, b = false \/ ~ In x (akeys suf') -> dget x C = dget x P) ->
  (forall base, In base ["alpha_chi"; "beta_chi"; "mu_chi"; "sigma_chi"]%string -> ~ In (key base suf) (akeys suf')) ->
  agree P C suf.
Proof. intros H N; repeat split; apply H; right; apply N; simpl; auto. Qed.

Ltac nokey := intros base Hb; simpl in Hb; repeat (destruct Hb as [<-|Hb]; [intros [E|[E|[]]]; discriminate E|]);
  destruct Hb.

Lemma convert_ok params remove s s' c added : (params < List.length (dicts s))%nat ->
  convert_to_beta_parameters params remove s = (s', Ok (c, added)) ->
  let P := nth params (dicts s) [] in
  c = List.length (dicts s) /\
  added = (if remove then flat_map akeys (plan P) else []) /\
  exists C', dicts s' = (dicts s ++ [C'])%list /\
    (forall x, ~ In x (flat_map akeys (plan P)) -> dget x C' = dget x P) /\
    (forall x, In x (flat_map akeys (plan P)) -> exists v, dget x C' = Some v /\ v <> VNone) /\
    ((forall suf, In suf (plan P) -> norefs P suf) -> exists ext, arrays s' = (arrays s ++ ext)%list) /\
    (plan P = [] -> arrays s' = arrays s) /\
    (forall suf, In suf (plan P) -> forall mu var am p q r,
         dget (key "mu_chi" suf) P = Some (VNum (Fin mu) p) ->
         dget (key "sigma_chi" suf) P = Some (VNum (Fin var) q) -> var <> 0 ->
         dget (key "amax" suf) P = Some (VNum (Fin am) r) -> am <> 0 ->
         exists f1 f2, dget (key "alpha_chi" suf) C' = Some (VNum (Fin (m2a_alpha mu var am)) f1) /\
                       dget (key "beta_chi" suf) C' = Some (VNum (Fin (m2a_beta mu var am)) f2)).
Proof.
  intros Hp. intros E P. revert E.
  unfold convert_to_beta_parameters. unfold sbind at 1. unfold dict_copy at 1. fold P.
  set (D := dicts s) in *.
  assert (EP : nth params D [] = P) by reflexivity. clearbody P.
  set (s0 := mkStore (arrays s) (D ++ [P])%list).
  assert (D0 : dicts s0 = (D ++ [P])%list) by reflexivity.
  unfold sbind at 1. destruct (convert_one params (List.length D) remove "_1" s0) as [s1 [[d1 k1]|e1]] eqn:E1; [|discriminate].
  destruct (step_ok D params remove "_1" P Hp EP P s0 s1 d1 k1 D0 (agree_refl _ _) E1)
    as [H1d [H1k [C1 [H1 [G1 [N1 [R1 [I1 V1]]]]]]]].
  assert (A2 : agree P C1 "_2") by (eapply agree_other; [exact G1|nokey]).
  unfold sbind at 1. destruct (convert_one params (List.length D) remove "_2" s1) as [s2 [[d2 k2]|e2]] eqn:E2; [|discriminate].
  destruct (step_ok D params remove "_2" P Hp EP C1 s1 s2 d2 k2 H1 A2 E2)
    as [H2d [H2k [C2 [H2 [G2 [N2 [R2 [I2 V2]]]]]]]].
  assert (X1 : forall base, In base ["alpha_chi"; "beta_chi"]%string ->
     dget (key base "_1") C2 = dget (key base "_1") C1).
  { intros base Hb. apply G2. right. revert base Hb. nokey. }
  destruct (d1 || d2) eqn:Ed.
  - (* suffixed parameters available *)
    intros E; injection E as <- <- <-.
    assert (PE : plan P = ((if conv1 P "_1" then ["_1"%string] else []) ++ (if conv1 P "_2" then ["_2"%string] else []))%list).
    { unfold plan. rewrite H1d, H2d in Ed. destruct (avail P "_1"), (avail P "_2"); simpl in Ed; try discriminate;
        simpl; now rewrite app_nil_r. }
    rewrite PE. split; auto. split.
    { rewrite H1k, H2k. destruct (conv1 P "_1"), (conv1 P "_2"), remove; reflexivity. }
    exists C2. split; [exact H2|].
    split; [|split; [|split; [|split]]].
    + intros x Hx. rewrite G2, G1; auto.
      * destruct (conv1 P "_1"); auto. right. intros B; apply Hx, in_flat_map.
        exists "_1"%string. split; [simpl; auto|exact B].
      * destruct (conv1 P "_2"); auto. right. intros B; apply Hx, in_flat_map.
        exists "_2"%string. split; [apply in_app_iff; simpl; auto|exact B].
    + intros x Hx. rewrite flat_map_app in Hx. apply in_app_iff in Hx as [Hx|Hx].
      * destruct (conv1 P "_1") eqn:B1; [|destruct Hx]. simpl in Hx.
        destruct Hx as [<-|[<-|[]]].
        -- rewrite X1 by (simpl; auto). apply N1; simpl; auto.
        -- rewrite X1 by (simpl; auto). apply N1; simpl; auto.
      * destruct (conv1 P "_2") eqn:B2; [|destruct Hx]. apply N2; auto.
    + intros N. assert (exists e1, arrays s1 = (arrays s0 ++ e1)%list) as [e1 Q1].
      { destruct (conv1 P "_1") eqn:B1; [apply R1, N; simpl; auto|]. rewrite I1 by auto. exists []. now rewrite app_nil_r. }
      assert (exists e2, arrays s2 = (arrays s1 ++ e2)%list) as [e2 Q2].
      { destruct (conv1 P "_2") eqn:B2; [apply R2, N; apply in_app_iff; right; simpl; auto|]. rewrite I2 by auto. exists []. now rewrite app_nil_r. }
      exists (e1 ++ e2)%list. rewrite Q2, Q1. simpl. now rewrite app_assoc.
    + intros Hpl. destruct (conv1 P "_1") eqn:B1; [discriminate Hpl|]. destruct (conv1 P "_2") eqn:B2; [discriminate Hpl|].
      rewrite I2, I1 by auto. reflexivity.
    + intros suf Hs mu var am p q r. apply in_app_iff in Hs as [Hs|Hs].
      * destruct (conv1 P "_1") eqn:B1; [|destruct Hs]. destruct Hs as [<-|[]]. intros Q1 Q2 Q3 Q4 Q5.
        destruct (V1 eq_refl mu var am p q r Q1 Q2 Q3 Q4 Q5) as [f1 [f2 [W1 W2]]].
        exists f1, f2. rewrite !X1 by (simpl; auto). auto.
      * destruct (conv1 P "_2") eqn:B2; [|destruct Hs]. destruct Hs as [<-|[]]. apply V2; auto.
  - (* shared parameters *)
    apply orb_false_elim in Ed as [Ed1 Ed2]. subst d1 d2.
    assert (B1 : conv1 P "_1" = false).
    { unfold avail in Ed1. apply orb_false_elim in Ed1 as [_ Ed1]. unfold conv1. rewrite Ed1. apply andb_false_r. }
    assert (B2 : conv1 P "_2" = false).
    { unfold avail in Ed2. apply orb_false_elim in Ed2 as [_ Ed2]. unfold conv1. rewrite Ed2. apply andb_false_r. }
    assert (A3 : agree P C2 "").
    { repeat split; rewrite G2, G1; auto. }
    unfold sbind at 1. destruct (convert_one params (List.length D) remove "" s2) as [s3 [[d3 k3]|e3]] eqn:E3; [|discriminate].
    destruct (step_ok D params remove "" P Hp EP C2 s2 s3 d3 k3 H2 A3 E3)
      as [H3d [H3k [C3 [H3 [G3 [N3 [R3 [I3 V3]]]]]]]].
      intros E; injection E as <- <- <-.
    assert (PE : plan P = if conv1 P "" then [""%string] else []).
    { unfold plan. now rewrite B1, B2, Ed1, Ed2. }
    rewrite PE. split; auto. split.
    { rewrite H1k, H2k, H3k, B1, B2. destruct (conv1 P ""), remove; reflexivity. }
    exists C3. split; [exact H3|]. split; [|split; [|split; [|split]]].
    + intros x Hx. assert (Hc : conv1 P "" = false \/ ~ In x (akeys "")).
      { destruct (conv1 P ""); [right|left; auto]. intros B; apply Hx, in_flat_map.
        exists ""%string. split; [simpl; auto|exact B]. }
      rewrite G3 by exact Hc. rewrite G2, G1 by auto. reflexivity.
    + intros x Hx. destruct (conv1 P "") eqn:B3; [|destruct Hx]. apply N3; auto.
    + intros N. assert (Q1 : arrays s1 = arrays s0) by now rewrite I1.
      assert (Q2 : arrays s2 = arrays s1) by now rewrite I2.
      assert (exists e3, arrays s3 = (arrays s2 ++ e3)%list) as [e3 Q3].
      { destruct (conv1 P "") eqn:B3; [apply R3, N; simpl; auto|]. rewrite I3 by auto. exists []. now rewrite app_nil_r. }
      exists e3. rewrite Q3, Q2, Q1. reflexivity.
    + intros Hpl. destruct (conv1 P "") eqn:B3; [discriminate Hpl|]. rewrite I3, I2, I1 by auto. reflexivity.
    + intros suf Hs. destruct (conv1 P "") eqn:B3; [|destruct Hs]. destruct Hs as [<-|[]]. apply V3; auto.
Qed.

Lemma convert_err_num params remove s s' e : (params < List.length (dicts s))%nat ->
  let P := nth params (dicts s) [] in
  (forall suf, In suf ["_1"; "_2"; ""]%string -> scalars P suf) ->
  convert_to_beta_parameters params remove s = (s', Err e) ->
  exists suf, In suf (plan P) /\ dget (key "amax" suf) P = None /\ e = KeyError (key "amax" suf).
Proof.
  intros Hp P HS. 
  unfold convert_to_beta_parameters. unfold sbind at 1. unfold dict_copy at 1. fold P.
  set (D := dicts s) in *.
  assert (EP : nth params D [] = P) by reflexivity. clearbody P.
  set (s0 := mkStore (arrays s) (D ++ [P])%list).
  assert (D0 : dicts s0 = (D ++ [P])%list) by reflexivity.
  unfold sbind at 1. destruct (convert_one params (List.length D) remove "_1" s0) as [s1 [[d1 k1]|e1]] eqn:E1.
  2:{ intros E; injection E as <- <-.
      destruct (step_err D params remove "_1" P Hp EP P s0 s1 e1 D0 (agree_refl _ _) E1) as [Q1 Q2].
      exists "_1"%string. unfold plan. rewrite Q1. split; [simpl; auto|]. apply Q2, HS; simpl; auto. }
  destruct (step_ok D params remove "_1" P Hp EP P s0 s1 d1 k1 D0 (agree_refl _ _) E1)
    as [H1d [H1k [C1 [H1 [G1 [N1 [R1 [I1 V1]]]]]]]].
  assert (A2 : agree P C1 "_2") by (eapply agree_other; [exact G1|nokey]).
  unfold sbind at 1. destruct (convert_one params (List.length D) remove "_2" s1) as [s2 [[d2 k2]|e2]] eqn:E2.
  2:{ intros E; injection E as <- <-.
      destruct (step_err D params remove "_2" P Hp EP C1 s1 s2 e2 H1 A2 E2) as [Q1 Q2].
      exists "_2"%string. unfold plan. rewrite Q1. split; [|apply Q2, HS; simpl; auto].
      apply in_app_iff. right. simpl. auto. }
  destruct (step_ok D params remove "_2" P Hp EP C1 s1 s2 d2 k2 H1 A2 E2)
    as [H2d [H2k [C2 [H2 [G2 [N2 [R2 [I2 V2]]]]]]]].
  destruct (d1 || d2) eqn:Ed; [discriminate|].
  apply orb_false_elim in Ed as [Ed1 Ed2]. subst d1 d2.
  assert (B1 : conv1 P "_1" = false).
  { unfold avail in Ed1. apply orb_false_elim in Ed1 as [_ Ed1]. unfold conv1. rewrite Ed1. apply andb_false_r. }
  assert (B2 : conv1 P "_2" = false).
  { unfold avail in Ed2. apply orb_false_elim in Ed2 as [_ Ed2]. unfold conv1. rewrite Ed2. apply andb_false_r. }
  assert (A3 : agree P C2 "").
  { repeat split; rewrite G2, G1; auto. }
  unfold sbind at 1. destruct (convert_one params (List.length D) remove "" s2) as [s3 [[d3 k3]|e3]] eqn:E3; [discriminate|].
  intros E; injection E as <- <-.
  destruct (step_err D params remove "" P Hp EP C2 s2 s3 e3 H2 A3 E3) as [Q1 Q2].
  exists ""%string. unfold plan. rewrite B1, B2, Ed1, Ed2. rewrite Q1. split; [simpl; auto|]. apply Q2, HS; simpl; auto.
Qed.
Lemma convert_err params remove s s' e : (params < List.length (dicts s))%nat ->
  let P := nth params (dicts s) [] in
  (forall suf, scalars P suf) ->
  convert_to_beta_parameters params remove s = (s', Err e) ->
  exists suf, In suf (plan P) /\ dget (key "amax" suf) P = None /\ e = KeyError (key "amax" suf).
Proof. intros Hp P HS. apply convert_err_num; auto. Qed.

(** A converted suffix without its amax makes the call fail. *)
Lemma convert_missing params remove s suf : (params < List.length (dicts s))%nat ->
  let P := nth params (dicts s) [] in
  In suf (plan P) -> dget (key "amax" suf) P = None ->
  exists s' e, convert_to_beta_parameters params remove s = (s', Err e).
Proof.
  intros Hp P Hi Ha. destruct (convert_to_beta_parameters params remove s) as [s' [[c k]|e]] eqn:E; [|eauto].
  exfalso. revert E.
  unfold convert_to_beta_parameters. unfold sbind at 1. unfold dict_copy at 1. fold P.
  set (D := dicts s) in *.
  assert (EP : nth params D [] = P) by reflexivity. clearbody P.
  set (s0 := mkStore (arrays s) (D ++ [P])%list).
  assert (D0 : dicts s0 = (D ++ [P])%list) by reflexivity.
  assert (HM : forall suf', suf = suf' -> conv1 P suf' = true -> forall C t, dicts t = (D ++ [C])%list -> agree P C suf' ->
     convert_one params (List.length D) remove suf' t = (t, Err (KeyError (key "amax" suf')))).
  { intros suf' <- Hc C t Ht A. apply (step_missing D params remove suf P Hp EP C t Ht A Hc Ha). }
  unfold plan in Hi. 
  unfold sbind at 1. destruct (convert_one params (List.length D) remove "_1" s0) as [s1 [[d1 k1]|e1]] eqn:E1; [|discriminate].
  destruct (step_ok D params remove "_1" P Hp EP P s0 s1 d1 k1 D0 (agree_refl _ _) E1)
    as [H1d [H1k [C1 [H1 [G1 [N1 [R1 [I1 V1]]]]]]]].
  apply in_app_iff in Hi as [Hi|Hi].
  { destruct (conv1 P "_1") eqn:B1; [|destruct Hi]. destruct Hi as [Hi|[]].
    rewrite (HM "_1"%string (eq_sym Hi) B1 P s0 D0 (agree_refl _ _)) in E1. discriminate. }
  assert (A2 : agree P C1 "_2") by (eapply agree_other; [exact G1|nokey]).
  unfold sbind at 1. destruct (convert_one params (List.length D) remove "_2" s1) as [s2 [[d2 k2]|e2]] eqn:E2; [|discriminate].
  destruct (step_ok D params remove "_2" P Hp EP C1 s1 s2 d2 k2 H1 A2 E2)
    as [H2d [H2k [C2 [H2 [G2 [N2 [R2 [I2 V2]]]]]]]].
  apply in_app_iff in Hi as [Hi|Hi].
  { destruct (conv1 P "_2") eqn:B1; [|destruct Hi]. destruct Hi as [Hi|[]].
    rewrite (HM "_2"%string (eq_sym Hi) B1 C1 s1 H1 A2) in E2. discriminate. }
  subst d1 d2.
  destruct (avail P "_1") eqn:Ed1; [destruct Hi|]. destruct (avail P "_2") eqn:Ed2; [destruct Hi|]. simpl in Hi |- *.
  assert (B1 : conv1 P "_1" = false).
  { unfold avail in Ed1. apply orb_false_elim in Ed1 as [_ Ed1]. unfold conv1. rewrite Ed1. apply andb_false_r. }
  assert (B2 : conv1 P "_2" = false).
  { unfold avail in Ed2. apply orb_false_elim in Ed2 as [_ Ed2]. unfold conv1. rewrite Ed2. apply andb_false_r. }
  assert (A3 : agree P C2 "").
  { repeat split; rewrite G2, G1; auto. }
  destruct (conv1 P "") eqn:B3; [|destruct Hi]. destruct Hi as [Hi|[]].
  unfold sbind at 1. rewrite (HM ""%string (eq_sym Hi) B3 C2 s2 H2 A3). discriminate.
Qed.

(** ** Idempotence *)
Lemma conv_noop params remove s : (params < List.length (dicts s))%nat ->
  let P := nth params (dicts s) [] in
  plan P = [] ->
  convert_to_beta_parameters params remove s =
  (mkStore (arrays s) (dicts s ++ [P])%list, Ok (List.length (dicts s), [])).
Proof.
  intros Hp P Hpl.
  unfold convert_to_beta_parameters. unfold sbind at 1. unfold dict_copy at 1. fold P.
  set (D := dicts s) in *.
  assert (EP : nth params D [] = P) by reflexivity. clearbody P.
  set (s0 := mkStore (arrays s) (D ++ [P])%list).
  assert (HP : nth params (dicts s0) [] = P) by (rewrite <- EP; simpl; apply app_nth1; auto).
  assert (HC : nth (List.length D) (dicts s0) [] = P) by (simpl; apply nth_app_last).
  unfold plan in Hpl. apply app_eq_nil in Hpl as [P1 Hpl]. apply app_eq_nil in Hpl as [P2 P3].
  assert (S : forall suf, conv1 P suf = false ->
    convert_one params (List.length D) remove suf s0 = (s0, Ok (avail P suf, []))).
  { intros suf Hs. rewrite convert_one_cases by (rewrite HP, HC; apply agree_refl). rewrite HP.
    unfold conv1 in Hs. unfold avail. destruct (needed P suf); [|reflexivity]. simpl in Hs |- *. rewrite Hs. reflexivity. }
  unfold sbind at 1. rewrite S by (destruct (conv1 P "_1"); [discriminate|auto]).
  unfold sbind at 1. rewrite S by (destruct (conv1 P "_2"); [discriminate|auto]).
  destruct (avail P "_1"); [reflexivity|]. destruct (avail P "_2"); [reflexivity|].
  simpl in P3 |- *. unfold sbind at 1. rewrite S by (destruct (conv1 P ""); [discriminate|auto]). reflexivity.
Qed.

Lemma needed_ext P C suf : (forall x, In x (akeys suf) -> dget x C = dget x P) -> needed C suf = needed P suf.
Proof. intros H; unfold needed; rewrite !H by (unfold akeys; simpl; auto); reflexivity. Qed.
Lemma needed_done C suf : (forall x, In x (akeys suf) -> exists v, dget x C = Some v /\ v <> VNone) -> needed C suf = false.
Proof.
  intros H; unfold needed.
  destruct (H (key "alpha_chi" suf)) as [va [-> Na]]; [unfold akeys; simpl; auto|].
  destruct (H (key "beta_chi" suf)) as [vb [-> Nb]]; [unfold akeys; simpl; auto|].
  destruct va, vb; auto; congruence.
Qed.

Lemma plan_suffix P suf : In suf (plan P) -> conv1 P suf = true.
Proof.
  unfold plan. intros H. apply in_app_iff in H as [H|H]; [|apply in_app_iff in H as [H|H]].
  - destruct (conv1 P "_1") eqn:E; [destruct H as [<-|[]]; auto|destruct H].
  - destruct (conv1 P "_2") eqn:E; [destruct H as [<-|[]]; auto|destruct H].
  - destruct (conv1 P "") eqn:E; [|rewrite andb_false_r in H; destruct H].
    destruct (negb (avail P "_1") && negb (avail P "_2")); [destruct H as [<-|[]]; auto|destruct H].
Qed.

Lemma plan_iff P suf : In suf (plan P) <->
  (suf = "_1"%string /\ conv1 P "_1" = true) \/ (suf = "_2"%string /\ conv1 P "_2" = true) \/
  (suf = ""%string /\ avail P "_1" = false /\ avail P "_2" = false /\ conv1 P "" = true).
Proof.
  unfold plan. rewrite !in_app_iff.
  destruct (conv1 P "_1"), (conv1 P "_2"), (conv1 P ""), (avail P "_1"), (avail P "_2"); simpl; intuition (subst; auto; discriminate).
Qed.

Lemma in_akeys_plan P x : In x (flat_map akeys (plan P)) <-> exists suf, In suf (plan P) /\ In x (akeys suf).
Proof. apply in_flat_map. Qed.

Lemma plan_after P C :
  (forall x, ~ In x (flat_map akeys (plan P)) -> dget x C = dget x P) ->
  (forall x, In x (flat_map akeys (plan P)) -> exists v, dget x C = Some v /\ v <> VNone) ->
  plan C = [].
Proof.
  intros H1 H2.
  assert (K : forall base, In base ["mu_chi"; "sigma_chi"]%string -> forall suf, In suf ["_1"; "_2"; ""]%string ->
     dget (key base suf) C = dget (key base suf) P).
  { intros base Hb suf Hs. apply H1. rewrite in_akeys_plan. intros [suf' [_ Hi]].
    simpl in Hb, Hs. destruct Hb as [<-|[<-|[]]]; destruct Hs as [<-|[<-|[<-|[]]]]; destruct Hi as [Hi|[Hi|[]]]; discriminate Hi. }
  assert (Hm : forall suf, In suf ["_1"; "_2"; ""]%string -> has_mu_sigma C suf = has_mu_sigma P suf).
  { intros suf Hs. unfold has_mu_sigma, dmem. rewrite !K by (simpl; auto). reflexivity. }
  assert (Q : forall suf, In suf ["_1"; "_2"; ""]%string ->
     (In suf (plan P) /\ needed C suf = false) \/ (~ In suf (plan P) /\ needed C suf = needed P suf)).
  { intros suf Hs. destruct (in_dec string_dec suf (plan P)) as [Hi|Hi]; [left|right]; split; auto.
    - apply needed_done. intros x Hx. apply H2, in_akeys_plan. eauto.
    - apply needed_ext. intros x Hx. apply H1. rewrite in_akeys_plan. intros [suf' [Hi' Hx']].
      assert (Hs' : In suf' ["_1"; "_2"; ""]%string).
      { apply plan_iff in Hi'. simpl. intuition (subst; auto). }
      simpl in Hs, Hs'. 
      destruct Hs as [<-|[<-|[<-|[]]]]; destruct Hs' as [<-|[<-|[<-|[]]]]; try contradiction;
        destruct Hx as [<-|[<-|[]]]; destruct Hx' as [Hx'|[Hx'|[]]]; discriminate Hx'. }
  assert (NC : forall suf, In suf ["_1"; "_2"]%string -> conv1 C suf = false /\ avail C suf = avail P suf).
  { intros suf Hs. assert (Hs3 : In suf ["_1"; "_2"; ""]%string) by (simpl in *; tauto).
    destruct (Q suf Hs3) as [[Hi Hn]|[Hi Hn]].
    - apply plan_suffix in Hi. unfold conv1, avail in *. rewrite Hn, Hm by auto.
      apply andb_prop in Hi as [-> ->]. auto.
    - unfold conv1, avail. rewrite Hn, Hm by auto. split; auto.
      destruct (needed P suf && has_mu_sigma P suf) eqn:B; auto. exfalso; apply Hi, plan_iff.
      simpl in Hs. destruct Hs as [<-|[<-|[]]]; auto. }
  destruct (NC "_1"%string) as [N1 A1]; [simpl; auto|]. destruct (NC "_2"%string) as [N2 A2]; [simpl; auto|].
  unfold plan. rewrite N1, N2, A1, A2. simpl.
  destruct (avail P "_1") eqn:B1; auto. destruct (avail P "_2") eqn:B2; auto. simpl.
  destruct (Q ""%string) as [[Hi Hn]|[Hi Hn]]; [simpl; auto| |].
  - unfold conv1. now rewrite Hn.
  - unfold conv1. rewrite Hn, Hm by (simpl; auto).
    destruct (needed P "" && has_mu_sigma P "") eqn:B; auto. exfalso; apply Hi, plan_iff. right; right; auto.
Qed.
