(** Property theorems (conv). Proofs are in [conv_thms]; the vocabulary is in [Spec]. *)
From Coq Require Import Reals Lra Lia Psatz String Bool.
From Coquelicot Require Import Coquelicot.
From Coq Require Import List.
From Verif Require Import Xf Py St Xf_facts Py_facts Calc Special Spec Utils_model Beta_facts Beta_moments
  Conversions_model SpecConv Conversions_facts.
Import ListNotations.
Local Open Scope R_scope.
From Verif Require Import conv_thms.

(** C15, scalars (Python floats or numpy scalars, whatever the flags): converting
    (alpha, beta, amax) to (mu, var, amax) and back is the identity. *)
Theorem C15_round_trip_alpha_beta :
  forall a b m pa pb pm s, 0 < a -> 0 < b -> 0 < m ->
  exists mu var,
    (exists vmu vvar, alpha_beta_max_to_mu_var_max (Sc (Fin a) pa) (Sc (Fin b) pb) (Sc (Fin m) pm)
                      = Ok (vmu, vvar, Sc (Fin m) pm) /\ is_num vmu mu /\ is_num vvar var) /\
    (forall qm qv qa, exists va vb,
       mu_var_max_to_alpha_beta_max (VNum (Fin mu) qm) (VNum (Fin var) qv) (VNum (Fin m) qa) s = (s, Ok (va, vb)) /\
       is_num va a /\ is_num vb b).
Proof. exact C15_round_trip_alpha_beta_pf. Qed.
Print Assumptions C15_round_trip_alpha_beta.

(** C15, the other round trip, on the feasible region. *)
Theorem C15_round_trip_mu_var :
  forall mu var m qm qv qa s, 0 < mu < m -> 0 < var < mu * (m - mu) ->
  exists a b,
    (exists va vb, mu_var_max_to_alpha_beta_max (VNum (Fin mu) qm) (VNum (Fin var) qv) (VNum (Fin m) qa) s
                   = (s, Ok (va, vb)) /\ is_num va a /\ is_num vb b) /\
    (forall pa pb pm, exists vmu vvar,
       alpha_beta_max_to_mu_var_max (Sc (Fin a) pa) (Sc (Fin b) pb) (Sc (Fin m) pm) = Ok (vmu, vvar, Sc (Fin m) pm) /\
       is_num vmu mu /\ is_num vvar var).
Proof. exact C15_round_trip_mu_var_pf. Qed.
Print Assumptions C15_round_trip_mu_var.

(** C15, arrays: the same round trip elementwise, for mutable numpy arrays of any common length.
    [l] is the table of (alpha, beta, amax) triples; mu, var and amax live in three arrays. *)
Theorem C15_round_trip_arrays :
  forall (l : list (R * R * R)),
  (forall a b m, In (a, b, m) l -> 0 < a /\ 0 < b /\ 0 < m) ->
  let A := map (fun t => Fin (fst (fst t))) l in
  let B := map (fun t => Fin (snd (fst t))) l in
  let M := map (fun t => Fin (snd t)) l in
  exists MU VAR,
    alpha_beta_max_to_mu_var_max (Ar A) (Ar B) (Ar M) = Ok (Ar MU, Ar VAR, Ar M) /\
    forall s pm pv pa, NoDup [pm; pv; pa] ->
      (pm < List.length (arrays s))%nat -> (pv < List.length (arrays s))%nat ->
      nth pm (arrays s) [] = MU -> nth pv (arrays s) [] = VAR -> nth pa (arrays s) [] = M ->
      exists s', mu_var_max_to_alpha_beta_max (VRef pm) (VRef pv) (VRef pa) s = (s', Ok (Ar A, Ar B)).
Proof. exact C15_round_trip_arrays_pf. Qed.
Print Assumptions C15_round_trip_arrays.

(** Non-vacuity: alpha=2, beta=5, amax=1 as Python floats; and a two-element table. *)
Example C15_example : exists mu var,
    (exists vmu vvar, alpha_beta_max_to_mu_var_max (Sc (Fin 2) true) (Sc (Fin 5) true) (Sc (Fin 1) true)
                      = Ok (vmu, vvar, Sc (Fin 1) true) /\ is_num vmu mu /\ is_num vvar var) /\
    (forall qm qv qa, exists va vb,
       mu_var_max_to_alpha_beta_max (VNum (Fin mu) qm) (VNum (Fin var) qv) (VNum (Fin 1) qa) (mkStore [] []) = (mkStore [] [], Ok (va, vb)) /\
       is_num va 2 /\ is_num vb 5).
Proof. apply C15_round_trip_alpha_beta; lra. Qed.
Example C15_example_arrays : forall a b m, In (a, b, m) [(2, 5, 1); (1, 1, / 2)] -> 0 < a /\ 0 < b /\ 0 < m.
Proof. intros a b m [E|[E|[]]]; injection E as <- <- <-; lra. Qed.

(** C16 *)
Theorem C16_feasible_region :
  forall mu var m qm qv qa s, 0 < var -> 0 < m ->
  exists va vb a b,
    mu_var_max_to_alpha_beta_max (VNum (Fin mu) qm) (VNum (Fin var) qv) (VNum (Fin m) qa) s = (s, Ok (va, vb)) /\
    is_num va a /\ is_num vb b /\
    ((0 < a /\ 0 < b) <-> (0 < mu < m /\ var < mu * (m - mu))).
Proof. exact C16_feasible_region_pf. Qed.
Print Assumptions C16_feasible_region.

(** Non-vacuity: both sides of the equivalence occur. *)
Example C16_inside : 0 < / 2 < 1 /\ / 10 < / 2 * (1 - / 2).
Proof. lra. Qed.
Example C16_outside : ~ (0 < / 2 < 1 /\ / 3 < / 2 * (1 - / 2)).
Proof. lra. Qed.

(** C80: the documented meaning of mu and var: they are the mean and the variance of the
    density [beta_dist] returns for the corresponding alpha, beta, amax (as the scale). *)
Theorem C80_mean_and_variance :
  forall bk kw a b m pa pb pm, 0 < a -> 0 < b -> 0 < m ->
  exists mu var (g : R -> R),
    (exists vmu vvar, alpha_beta_max_to_mu_var_max (Sc (Fin a) pa) (Sc (Fin b) pb) (Sc (Fin m) pm)
                      = Ok (vmu, vvar, Sc (Fin m) pm) /\ is_num vmu mu /\ is_num vvar var) /\
    (forall x, 0 < x < m -> returns (beta_dist bk kw (Fin x) (Fin a) (Fin b) (Fin m)) (g x)) /\
    is_RInt_gen (fun x => x * g x) (at_right 0) (at_left m) mu /\
    is_RInt_gen (fun x => (x - mu) * (x - mu) * g x) (at_right 0) (at_left m) var.
Proof. exact C80_mean_and_variance_pf. Qed.
Print Assumptions C80_mean_and_variance.

(** C80, for the conversion in the other direction: on the feasible region the alpha and beta
    it returns give a [beta_dist] density with exactly the requested mean and variance. *)
Theorem C80_requested_moments :
  forall bk kw mu var m qm qv qa s, 0 < mu < m -> 0 < var < mu * (m - mu) ->
  exists a b (g : R -> R),
    (exists va vb, mu_var_max_to_alpha_beta_max (VNum (Fin mu) qm) (VNum (Fin var) qv) (VNum (Fin m) qa) s
                   = (s, Ok (va, vb)) /\ is_num va a /\ is_num vb b) /\
    (forall x, 0 < x < m -> returns (beta_dist bk kw (Fin x) (Fin a) (Fin b) (Fin m)) (g x)) /\
    is_RInt_gen g (at_right 0) (at_left m) 1 /\
    is_RInt_gen (fun x => x * g x) (at_right 0) (at_left m) mu /\
    is_RInt_gen (fun x => (x - mu) * (x - mu) * g x) (at_right 0) (at_left m) var.
Proof. exact C80_requested_moments_pf. Qed.
Print Assumptions C80_requested_moments.

(** Non-vacuity: mean 0.3 and variance 0.03 on [0,1] are feasible. *)
Example C80_example : 0 < 0.3 < 1 /\ 0 < 0.03 < 0.3 * (1 - 0.3).
Proof. lra. Qed.

(** C17: for every dictionary, when the call returns: all dictionaries that existed before are
    unchanged, the result is a new dictionary, unreported keys keep their value (in particular
    nothing is removed), the reported keys hold a value, and they are exactly the alpha/beta keys
    of the converted suffixes with [remove=True] and none with [remove=False]. *)
Theorem C17_only_adds :
  forall params remove s s' c added, (params < List.length (dicts s))%nat ->
  convert_to_beta_parameters params remove s = (s', Ok (c, added)) ->
  let P := nth params (dicts s) [] in
  let C := nth c (dicts s') [] in
  same_dicts s s' /\ c = List.length (dicts s) /\
  (forall k, (exists suf, selected P suf /\ (k = "alpha_chi" ++ suf \/ k = "beta_chi" ++ suf)%string) -> usable k C) /\
  (forall k, ~ (exists suf, selected P suf /\ (k = "alpha_chi" ++ suf \/ k = "beta_chi" ++ suf)%string) -> dget k C = dget k P) /\
  (remove = false -> added = []) /\
  (remove = true -> forall k, In k added <->
     exists suf, selected P suf /\ (k = "alpha_chi" ++ suf \/ k = "beta_chi" ++ suf)%string).
Proof. exact C17_only_adds_pf. Qed.
Print Assumptions C17_only_adds.

(** Non-vacuity: mu_chi, sigma_chi, amax given and an unrelated key. *)
Example C17_example : exists s' c,
  convert_to_beta_parameters 0 true
    (mkStore [] [[("mu_chi", VNum (Fin (1/2)) true); ("sigma_chi", VNum (Fin (1/20)) true);
                  ("amax", VNum (Fin 1) true); ("lamb", VNum (Fin 2) true)]%string])
  = (s', Ok (c, ["alpha_chi"; "beta_chi"]%string)).
Proof.
  match goal with |- exists s' c, convert_to_beta_parameters ?p ?r ?s = _ =>
    destruct (convert_to_beta_parameters p r s) as [s' [[c added]|e]] eqn:E end.
  - exists s', c. apply convert_ok in E as [_ [-> _]]; [reflexivity|simpl; auto].
  - exfalso. apply convert_err in E as [suf [Hi [Ha _]]]; [|simpl; auto|].
    + vm_compute in Hi. destruct Hi as [<-|[]]. discriminate Ha.
    + intros suf. unfold scalars. 
      assert (Q : forall k v, dget k [("mu_chi", VNum (Fin (1/2)) true); ("sigma_chi", VNum (Fin (1/20)) true);
                  ("amax", VNum (Fin 1) true); ("lamb", VNum (Fin 2) true)]%string = Some v ->
                  exists x p, v = VNum (Fin x) p /\ x <> 0).
      { intros k v H. apply dget_In in H. simpl in H.
        destruct H as [H|[H|[H|[H|[]]]]]; injection H as <- <-; do 2 eexists; (split; [reflexivity|lra]). }
      simpl nth. repeat split; intros v H; apply Q in H as [x [p [-> H]]]; eauto.
Qed.

(** C18: which sets are converted, with what values (the key called sigma_chi holds a variance),
    and that the only possible failure is a missing amax. *)
Theorem C18_selected_values :
  forall params remove s s' c added, (params < List.length (dicts s))%nat ->
  convert_to_beta_parameters params remove s = (s', Ok (c, added)) ->
  let P := nth params (dicts s) [] in
  let C := nth c (dicts s') [] in
  forall suf mu var am qm qv qa, selected P suf ->
    dget ("mu_chi" ++ suf)%string P = Some (VNum (Fin mu) qm) ->
    dget ("sigma_chi" ++ suf)%string P = Some (VNum (Fin var) qv) -> var <> 0 ->
    dget ("amax" ++ suf)%string P = Some (VNum (Fin am) qa) -> am <> 0 ->
    holds_num (dget ("alpha_chi" ++ suf)%string C) ((mu * mu * (am - mu) - mu * var) / (am * var)) /\
    holds_num (dget ("beta_chi" ++ suf)%string C) ((mu * ((am - mu) * (am - mu)) - (am - mu) * var) / (am * var)).
Proof. exact C18_selected_values_pf. Qed.
Print Assumptions C18_selected_values.

Theorem C18_fails_iff_amax_missing :
  forall params remove s, (params < List.length (dicts s))%nat ->
  let P := nth params (dicts s) [] in
  numeric P ->
  ((exists suf, selected P suf /\ ~ has_key ("amax" ++ suf) P) <->
   (exists s' e, convert_to_beta_parameters params remove s = (s', Err e))) /\
  (forall s' e, convert_to_beta_parameters params remove s = (s', Err e) ->
     exists suf, selected P suf /\ ~ has_key ("amax" ++ suf) P /\ e = KeyError ("amax" ++ suf)%string).
Proof. exact C18_fails_iff_amax_missing_pf. Qed.
Print Assumptions C18_fails_iff_amax_missing.

(** Non-vacuity: a suffixed set takes precedence over the shared one. *)
Example C18_example :
  let P := [("mu_chi_1", VNum (Fin (1/2)) true); ("sigma_chi_1", VNum (Fin (1/20)) true);
            ("mu_chi", VNum (Fin (1/2)) true); ("sigma_chi", VNum (Fin (1/20)) true)]%string in
  selected P "_1" /\ ~ selected P "" /\ ~ has_key "amax_1" P.
Proof.
  split; [|split].
  - left. split; auto. split.
    + intros [[v [H _]] _]. discriminate.
    + split; eexists; reflexivity.
  - intros [[[H|H] _]|[_ [_ [H _]]]]; try discriminate. apply H. split; eexists; reflexivity.
  - intros [v H]; discriminate.
Qed.

(** C19: converting the result again succeeds, adds nothing, and changes no stored array or
    dictionary, whatever the values (numbers or arrays). *)
Theorem C19_idempotent :
  forall params remove remove2 s s' c added, (params < List.length (dicts s))%nat ->
  convert_to_beta_parameters params remove s = (s', Ok (c, added)) ->
  exists s2 c2,
    convert_to_beta_parameters c remove2 s' = (s2, Ok (c2, [])) /\
    nth c2 (dicts s2) [] = nth c (dicts s') [] /\ same_dicts s' s2 /\ arrays s2 = arrays s'.
Proof. exact C19_idempotent_pf. Qed.
Print Assumptions C19_idempotent.

(** C20 as stated fails for arrays; this covers every dictionary whose mu and sigma entries of the
    converted suffixes are not mutable arrays (numbers, None, jax arrays): the caller's arrays are untouched. *)
Theorem C20_callers_arrays_partial :
  forall params remove s s' c added, (params < List.length (dicts s))%nat ->
  convert_to_beta_parameters params remove s = (s', Ok (c, added)) ->
  let P := nth params (dicts s) [] in
  (forall suf p, selected P suf -> dget ("mu_chi" ++ suf) P <> Some (VRef p) /\ dget ("sigma_chi" ++ suf) P <> Some (VRef p)) ->
  same_arrays s s'.
Proof. exact C20_callers_arrays_partial_pf. Qed.
Print Assumptions C20_callers_arrays_partial.

(** C20 is violated for numpy arrays: on this reachable input (mu, sigma one-element arrays and
    amax a number) the caller's arrays are rescaled, for every mu and every amax other than 0 and 1. *)
Theorem C20_arrays_mutated_refuted :
  forall remove mu var am py, mu <> 0 -> var <> 0 -> am <> 0 -> am <> 1 ->
  let P := [("mu_chi", VRef 0); ("sigma_chi", VRef 1); ("amax", VNum (Fin am) py)]%string in
  let s := mkStore [[Fin mu]; [Fin var]] [P] in
  exists s' c added,
    convert_to_beta_parameters 0 remove s = (s', Ok (c, added)) /\
    nth 0 (arrays s') [] = [Fin (mu / am)] /\ nth 1 (arrays s') [] = [Fin (var / (am * am))] /\
    ~ same_arrays s s'.
Proof. exact C20_arrays_mutated_refuted_pf. Qed.
Print Assumptions C20_arrays_mutated_refuted.

(** Non-vacuity of the partial theorem: a dictionary of numbers. *)
Example C20_example : forall suf p,
  let P := [("mu_chi", VNum (Fin (1/2)) true); ("sigma_chi", VNum (Fin (1/20)) true); ("amax", VNum (Fin 1) true)]%string in
  selected P suf -> dget ("mu_chi" ++ suf) P <> Some (VRef p) /\ dget ("sigma_chi" ++ suf) P <> Some (VRef p).
Proof.
  intros suf p P _.
  assert (Q : forall k, dget k P <> Some (VRef p)); [|auto].
  intros k H. apply dget_In in H. simpl in H. destruct H as [H|[H|[H|[]]]]; discriminate.
Qed.

