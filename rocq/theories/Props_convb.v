(** Property theorems (convb). Proofs are in [convb_thms]; the vocabulary is in [Spec]. *)
From Coq Require Import Reals Lra Lia Psatz String Bool.
From Coquelicot Require Import Coquelicot.
From Coq Require Import List.
From Verif Require Import Xf Py St Xf_facts Py_facts Calc Special Spec Utils_model Beta_facts Beta_moments
  Conversions_model SpecConv Conversions_facts conv_thms.
Import ListNotations.
Local Open Scope R_scope.
From Verif Require Import convb_thms.

(** C18. None is not a number: a call that returns found a value other than None under mu_chi, sigma_chi and amax of every converted suffix (a None there raises). *)
Theorem C18_none_rejected :
  forall params remove s s' c added, (params < List.length (dicts s))%nat ->
  convert_to_beta_parameters params remove s = (s', Ok (c, added)) ->
  let P := nth params (dicts s) [] in
  forall suf, selected P suf -> usable ("mu_chi" ++ suf) P /\ usable ("sigma_chi" ++ suf) P /\ usable ("amax" ++ suf) P.
Proof. exact C18_none_rejected_pf. Qed.
Print Assumptions C18_none_rejected.

(** C18, arrays: with one converted suffix whose mu, variance and amax are three distinct arrays of equal length, the call returns two new arrays holding the elementwise conversion. *)
Theorem C18_array_values :
  forall params remove s suf pm pv pa (l : list (R * R * R)), (params < List.length (dicts s))%nat ->
  let P := nth params (dicts s) [] in
  selected P suf -> (forall suf', selected P suf' -> suf' = suf) ->
  dget ("mu_chi" ++ suf)%string P = Some (VRef pm) -> dget ("sigma_chi" ++ suf)%string P = Some (VRef pv) -> dget ("amax" ++ suf)%string P = Some (VRef pa) ->
  NoDup [pm; pv; pa] -> (pm < List.length (arrays s))%nat -> (pv < List.length (arrays s))%nat -> (pa < List.length (arrays s))%nat ->
  nth pm (arrays s) [] = map (fun t => Fin (fst (fst t))) l -> nth pv (arrays s) [] = map (fun t => Fin (snd (fst t))) l -> nth pa (arrays s) [] = map (fun t => Fin (snd t)) l ->
  (forall mu var am, In (mu, var, am) l -> am <> 0 /\ var <> 0) ->
  exists s' c added ia ib, convert_to_beta_parameters params remove s = (s', Ok (c, added)) /\
    dget ("alpha_chi" ++ suf)%string (nth c (dicts s') []) = Some (VRef ia) /\ dget ("beta_chi" ++ suf)%string (nth c (dicts s') []) = Some (VRef ib) /\
    ia <> ib /\ (List.length (arrays s) <= ia)%nat /\ (List.length (arrays s) <= ib)%nat /\
    nth ia (arrays s') [] = map (fun '(mu, var, am) => Fin ((mu * mu * (am - mu) - mu * var) / (am * var))) l /\
    nth ib (arrays s') [] = map (fun '(mu, var, am) => Fin ((mu * ((am - mu) * (am - mu)) - (am - mu) * var) / (am * var))) l.
Proof. exact C18_array_values_pf. Qed.
Print Assumptions C18_array_values.

(** C20, for every dictionary and every outcome, exceptions included: the only arrays of the caller that can change are those under mu_chi and sigma_chi of a converted suffix. *)
Theorem C20_only_mu_and_sigma_arrays_partial :
  forall params remove s s' r p, (params < List.length (dicts s))%nat ->
  convert_to_beta_parameters params remove s = (s', r) -> (p < List.length (arrays s))%nat ->
  let P := nth params (dicts s) [] in
  (forall suf, selected P suf -> dget ("mu_chi" ++ suf) P <> Some (VRef p) /\ dget ("sigma_chi" ++ suf) P <> Some (VRef p)) ->
  nth p (arrays s') [] = nth p (arrays s) [].
Proof. exact C20_only_mu_and_sigma_arrays_partial_pf. Qed.
Print Assumptions C20_only_mu_and_sigma_arrays_partial.

(** Non-vacuity: mu, variance and amax in three arrays, an unrelated fourth array; and a None. *)
Example C18_arrays_hyps : let P := [("mu_chi", VRef 0); ("sigma_chi", VRef 1); ("amax", VRef 2); ("other", VRef 3)]%string in
  selected P "" /\ (forall suf', selected P suf' -> suf' = ""%string) /\ NoDup [0; 1; 2]%nat /\
  (forall suf, selected P suf -> dget ("mu_chi" ++ suf) P <> Some (VRef 3) /\ dget ("sigma_chi" ++ suf) P <> Some (VRef 3)).
Proof.
  intros P. assert (K : forall suf, In suf (plan P) -> suf = ""%string) by (intros suf; vm_compute; intros [<-|[]]; reflexivity).
  split; [apply selected_plan; vm_compute; now left|]. split; [intros suf' H; apply K; now apply selected_plan|].
  split; [repeat constructor; simpl; intuition discriminate|]. intros suf H. apply selected_plan in H. apply K in H. subst suf. split; discriminate.
Qed.
Example C18_none_hyps : let P := [("mu_chi", VNone); ("sigma_chi", VNum (Fin (1/20)) true); ("amax", VNum (Fin 1) true)]%string in
  selected P "" /\ ~ usable "mu_chi" P.
Proof.
  intros P. split; [apply selected_plan; vm_compute; now left|]. intros [v [H N]]. injection H as <-. now apply N.
Qed.

