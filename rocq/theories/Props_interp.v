(** Property theorems (interp). Proofs are in [interp_thms]; the vocabulary is in [Spec]. *)
From Coq Require Import Reals Lra Lia Psatz String Bool.
From Coquelicot Require Import Coquelicot.
From Coq Require Import List.
From Verif Require Import Xf Py St Xf_facts Py_facts Calc Spec Utils_model Powerlaw_facts Truncnorm_facts Trap_facts
  Np Np_facts Mass_model Mass_facts Smoothed_model Smoothed_facts SpecSmooth Interp_model Interp_facts.
Import ListNotations.
Local Open Scope R_scope.
From Verif Require Import interp_thms.

(** C34. A freshly constructed one-parameter model evaluated at the points of its own grid: if the trapezoid of the unnormalised density
    (exponential of the interpolant, cut at the first and last node) is a finite non-zero number, the trapezoid of the
    returned values is exactly 1. Any interpolation kernel, node count, range, positions and values. *)
Theorem C34_one_parameter_normalised :
  forall bk spl c param lo hi nodes kind log reg s kwargs f x N, (1 <= nodes)%nat ->
  interp_init c [param] lo hi nodes kind log reg = Ok s ->
  dget (fkey (in_base s) nodes) kwargs = None -> extract_spline_points s kwargs = Ok (f, x) ->
  let scale := fun t => if log then flog t else t in
  let density := fun t => fmul (fexp (spl kind (map scale x) f (scale t))) (of_bool (fge t (hd NaN x) && fle t (last x NaN))) in
  let grid := xlinspace lo hi (10 * nodes) in
  trapezoid (map density grid) grid = Fin N -> N <> 0 ->
  exists p, snd (p_x_identical bk spl [(param, grid)] kwargs s) = Ok p /\ trapezoid p grid = Fin 1.
Proof. exact C34_one_parameter_normalised_pf. Qed.
Print Assumptions C34_one_parameter_normalised.

(** C34. When the norm is finite and positive: with a linear axis, a kernel that is finite for finite nodes, values and points, and
    one grid point between the first and the last node, the density on the grid consists of non-negative numbers with trapezoid 1. *)
Theorem C34_norm_positive :
  forall bk spl c param lo hi nodes kind reg s kwargs (f x : list R), (1 <= nodes)%nat -> lo < hi ->
  (forall kind nodes f t, List.length f = List.length nodes -> exists r, spl kind (map Fin nodes) (map Fin f) (Fin t) = Fin r) ->
  interp_init c [param] lo hi nodes kind false reg = Ok s ->
  dget (fkey (in_base s) nodes) kwargs = None -> extract_spline_points s kwargs = Ok (map Fin f, map Fin x) ->
  (exists t, In t (linspace lo hi (10 * nodes)) /\ hd 0 x <= t <= last x 0) ->
  let grid := xlinspace lo hi (10 * nodes) in
  exists p, snd (p_x_identical bk spl [(param, grid)] kwargs s) = Ok p /\ trapezoid p grid = Fin 1 /\
            Forall (fun v => exists r, v = Fin r /\ 0 <= r) p.
Proof. exact C34_norm_positive_pf. Qed.
Print Assumptions C34_norm_positive.

(** A piecewise constant kernel is finite; a three-node model of a_1 on [0,1] meets the hypotheses. *)
Definition step_kernel (kind : string) (nodes vals : list xf) (t : xf) : xf := hd (Fin 0) vals.
Definition ex_kw (x0 x1 x2 f0 f1 f2 : R) : dict xf :=
  [("a0", Fin x0); ("a1", Fin x1); ("a2", Fin x2); ("fa0", Fin f0); ("fa1", Fin f1); ("fa2", Fin f2)]%string.
Example C34_hyps :
  (forall kind nodes f t, List.length f = List.length nodes -> exists r, step_kernel kind (map Fin nodes) (map Fin f) (Fin t) = Fin r) /\
  exists s, interp_init NoBase ["a_1"%string] 0 1 3 "cubic" false false = Ok s /\
    dget (fkey (in_base s) 3) (ex_kw 0 (1/2) 1 0 1 0) = None /\
    extract_spline_points s (ex_kw 0 (1/2) 1 0 1 0) = Ok (map Fin [0; 1; 0], map Fin [0; 1/2; 1]) /\
    exists t, In t (linspace 0 1 (10 * 3)) /\ hd 0 [0; 1/2; 1] <= t <= last [0; 1/2; 1] 0.
Proof.
  split.
  - intros kind nodes f t _. destruct f; simpl; eauto.
  - eexists. split; [reflexivity|]. split; [reflexivity|]. split; [reflexivity|]. exists 0. split; [left; simpl; ring|simpl; lra].
Qed.

(** C34. The density of k identically distributed parameters is, point by point, the product of the one-parameter
    densities: [one q] is what the one-parameter model (same configuration, same hyperparameters, fresh) returns for the column of parameter q. Finite
    kernel values at the data, norm finite and positive. *)
Theorem C34_product :
  forall bk spl c p0 ps lo hi nodes kind log reg sk s1 kwargs f x N ds cols n, (1 <= nodes)%nat ->
  interp_init c (p0 :: ps) lo hi nodes kind log reg = Ok sk -> interp_init c [p0] lo hi nodes kind log reg = Ok s1 ->
  dget (fkey (in_base sk) nodes) kwargs = None -> extract_spline_points sk kwargs = Ok (f, x) ->
  (forall q, In q (p0 :: ps) -> dget q ds = Some (cols q) /\ List.length (cols q) = n) ->
  let scale := fun t => if log then flog t else t in
  let density := fun t => fmul (fexp (spl kind (map scale x) f (scale t))) (of_bool (fge t (hd NaN x) && fle t (last x NaN))) in
  let grid := xlinspace lo hi (10 * nodes) in
  (forall q t, In q (p0 :: ps) -> In t (cols q) -> exists r, spl kind (map scale x) f (scale t) = Fin r) ->
  trapezoid (map density grid) grid = Fin N -> 0 < N ->
  exists l one, snd (p_x_identical bk spl ds kwargs sk) = Ok l /\ List.length l = n /\
    (forall q, In q (p0 :: ps) -> snd (p_x_identical bk spl [(p0, cols q)] kwargs s1) = Ok (one q)) /\
    forall i, (i < n)%nat -> nth i l NaN = fold_right fmul (Fin 1) (map (fun q => nth i (one q) NaN) (p0 :: ps)).
Proof. exact C34_product_pf. Qed.
Print Assumptions C34_product.

Example C34_product_hyps : exists sk s1,
  interp_init SpinMagnitude ["a_1"; "a_2"]%string 0 1 3 "cubic" false false = Ok sk /\
  interp_init SpinMagnitude ["a_1"]%string 0 1 3 "cubic" false false = Ok s1 /\
  extract_spline_points sk (ex_kw 0 (1/2) 1 0 1 0) = Ok (map Fin [0; 1; 0], map Fin [0; 1/2; 1]).
Proof. do 2 eexists. split; [reflexivity|]. split; reflexivity. Qed.

(** C35 holds only for some histories (full statement: for every history of calls; false by [C35_stale_nodes_refuted]): every earlier call
    used the same node positions and the same data, whatever the node values, and did not add nodes. Then the outcome is that of a
    fresh instance. *)
Theorem C35_same_nodes_partial :
  forall bk spl s history ds kwargs,
  in_norm s = None -> in_params s <> [] ->
  (forall q, In q (in_params s) -> exists c, dget q ds = Some c) ->
  dget (fkey (in_base s) (in_nodes s)) kwargs = None ->
  (forall c, In c history ->
     (forall q, In q (in_params s) -> dget q (fst c) = dget q ds) /\
     (forall k, In k (in_xkeys s) -> dget k (snd c) = dget k kwargs) /\
     dget (fkey (in_base s) (in_nodes s)) (snd c) = None) ->
  let call := p_x_identical bk spl in
  snd (call ds kwargs (run call history s)) = snd (call ds kwargs s).
Proof. exact C35_same_nodes_partial_pf. Qed.
Print Assumptions C35_same_nodes_partial.

Example C35_partial_hyps : exists s, spin_magnitude_init 0 1 3 "cubic" false = Ok s /\ in_norm s = None /\ in_params s <> [] /\
  dget (fkey (in_base s) (in_nodes s)) (ex_kw 0 (1/2) 1 0 1 0) = None /\
  forall k, In k (in_xkeys s) -> dget k (ex_kw 0 (1/2) 1 0 1 0) = dget k (ex_kw 0 (1/2) 1 3 4 5).
Proof.
  eexists. split; [reflexivity|]. split; [reflexivity|]. split; [discriminate|]. split; [reflexivity|].
  intros k Hk. simpl in Hk. destruct Hk as [<-|[<-|[<-|[]]]]; reflexivity.
Qed.

(** C35 is false in general, for any backend and any kernel that reproduces the node values and is finite: the
    three-node spin-magnitude model, called with nodes 0,1/2,1 and then with nodes 0,1/4,1/2 and node values 0,1,0, returns at the two
    points a_1 = 0 and a_1 = 1/2 densities in ratio 1:e (the interpolant still peaks at 1/2), a fresh instance equal densities. *)
Theorem C35_stale_nodes_refuted :
  forall bk spl,
  (forall kind nodes vals i, (i < List.length nodes)%nat -> List.length vals = List.length nodes -> NoDup nodes ->
      spl kind nodes vals (nth i nodes NaN) = nth i vals NaN) ->
  (forall kind nodes f t, List.length f = List.length nodes -> exists r, spl kind (map Fin nodes) (map Fin f) (Fin t) = Fin r) ->
  let call := p_x_identical bk spl in
  exists s kw1 kw2 ds a b, spin_magnitude_init 0 1 3 "cubic" false = Ok s /\
    snd (call ds kw2 s) = Ok [Fin a; Fin a] /\
    snd (call ds kw2 (run call [(ds, kw1)] s)) = Ok [Fin b; Fin (exp 1 * b)] /\ 0 < a /\ 0 < b.
Proof. exact C35_stale_nodes_refuted_pf. Qed.
Print Assumptions C35_stale_nodes_refuted.

(** A kernel meeting both hypotheses: the value of the node at the point, 0 elsewhere. *)
Fixpoint node_kernel (kind : string) (nodes vals : list xf) (t : xf) : xf :=
  match nodes, vals with
  | n :: nodes', v :: vals' => if xeq_dec t n then v else node_kernel kind nodes' vals' t
  | _, _ => Fin 0
  end.
Example C35_kernel_exact : forall kind nodes vals i, (i < List.length nodes)%nat -> List.length vals = List.length nodes -> NoDup nodes ->
      node_kernel kind nodes vals (nth i nodes NaN) = nth i vals NaN.
Proof.
  induction nodes as [|n nodes IH]; intros [|v vals] [|i] Hi HL ND; simpl in *; try lia.
  - now destruct (xeq_dec n n).
  - inversion ND as [|? ? NI ND']; subst. destruct (xeq_dec (nth i nodes NaN) n) as [E|].
    + exfalso. apply NI. rewrite <- E. apply nth_In. lia.
    + apply IH; auto; lia.
Qed.
Example C35_kernel_finite : forall kind nodes f t, List.length f = List.length nodes ->
  exists r, node_kernel kind (map Fin nodes) (map Fin f) (Fin t) = Fin r.
Proof.
  induction nodes as [|n nodes IH]; intros [|v f] t HL; try discriminate; cbn [node_kernel map]; eauto.
  destruct (xeq_dec (Fin t) (Fin n)); [eauto|apply IH; now injection HL].
Qed.

(** C35, the data: after a first evaluation, every later one ignores the data it is given except for its size and the cut
    at the end nodes. If all points of both datasets lie between the end nodes, the values returned for the new data are
    those of the old data. *)
Theorem C35_new_data_ignored_refuted :
  forall bk spl s ds1 kw1 f1 x1 ds2 kw2 f2 x2,
  in_norm s = None -> in_params s <> [] ->
  dget (fkey (in_base s) (in_nodes s)) kw1 = None -> dget (fkey (in_base s) (in_nodes s)) kw2 = None ->
  extract_spline_points s kw1 = Ok (f1, x1) -> extract_spline_points s kw2 = Ok (f2, x2) -> x2 <> [] ->
  (forall q, In q (in_params s) -> exists c1 c2, dget q ds1 = Some c1 /\ dget q ds2 = Some c2 /\
     List.length c1 = List.length c2 /\
     forall t, In t c1 \/ In t c2 -> fge t (hd NaN x2) && fle t (last x2 NaN) = true) ->
  let call := p_x_identical bk spl in
  snd (call ds2 kw2 (run call [(ds1, kw1)] s)) = snd (call ds1 kw2 (run call [(ds1, kw1)] s)).
Proof. exact C35_new_data_ignored_refuted_pf. Qed.
Print Assumptions C35_new_data_ignored_refuted.

Example C35_new_data_hyps : exists s, spin_magnitude_init 0 1 3 "cubic" false = Ok s /\
  extract_spline_points s (ex_kw 0 (1/2) 1 0 1 0) = Ok (map Fin [0; 1; 0], map Fin [0; 1/2; 1]) /\
  forall t, In t [Fin 0; Fin (1/3)] -> fge t (hd NaN (map Fin [0; 1/2; 1])) && fle t (last (map Fin [0; 1/2; 1]) NaN) = true.
Proof.
  eexists. split; [reflexivity|]. split; [reflexivity|]. intros t [<-|[<-|[]]]; simpl last; simpl hd; rewrite fge_fin, fle_fin, !Rleb_true by lra; reflexivity.
Qed.

(** C82 (a failed evaluation leaves the model as it was) is false: if the first evaluation fails because the dataset lacks a parameter other
    than the first, every later evaluation fails too, also with complete data: KeyError for the first parameter. *)
Theorem C82_failed_call_refuted :
  forall bk spl s ds1 kw1 f1 x1 p ps q0,
  in_norm s = None -> in_data s = [] -> in_params s = p :: ps ->
  dget (fkey (in_base s) (in_nodes s)) kw1 = None -> extract_spline_points s kw1 = Ok (f1, x1) ->
  (exists c, dget p ds1 = Some c) -> In q0 ps -> dget q0 ds1 = None ->
  let call := p_x_identical bk spl in
  (exists q, dget q ds1 = None /\ snd (call ds1 kw1 s) = Err (KeyError q)) /\
  forall ds2 kw2 f2 x2,
    dget (fkey (in_base s) (in_nodes s)) kw2 = None -> extract_spline_points s kw2 = Ok (f2, x2) ->
    snd (call ds2 kw2 (run call [(ds1, kw1)] s)) = Err (KeyError p).
Proof. exact C82_failed_call_refuted_pf. Qed.
Print Assumptions C82_failed_call_refuted.

Example C82_hyps : exists s, spin_magnitude_init 0 1 3 "cubic" false = Ok s /\ in_norm s = None /\ in_data s = [] /\
  in_params s = ["a_1"; "a_2"]%string /\ dget "a_2"%string [("a_1"%string, [Fin 0])] = None /\
  extract_spline_points s (ex_kw 0 (1/2) 1 0 1 0) = Ok (map Fin [0; 1; 0], map Fin [0; 1/2; 1]).
Proof. eexists. repeat (split; [reflexivity|]). reflexivity. Qed.

(** C36. The number of nodes inferred is the first index m at or above the configured count whose keyword f{base}{m} is missing (one
    exists for every dictionary of keywords); the instance is untouched if that is the configured count. Otherwise the
    spin models are rebuilt with m nodes, the base class raises TypeError. The count never decreases. *)
Theorem C36_inferred_count :
  forall s kwargs, exists m, (in_nodes s <= m)%nat /\
  (forall i, (in_nodes s <= i < m)%nat -> In ("f" ++ in_base s ++ str_nat i)%string (dkeys kwargs)) /\
  ~ In ("f" ++ in_base s ++ str_nat m)%string (dkeys kwargs) /\
  (m = in_nodes s -> infer_n_nodes kwargs s = (s, Ok tt)) /\
  (m <> in_nodes s -> in_class s = NoBase -> infer_n_nodes kwargs s = (s, Err TypeError)) /\
  (m <> in_nodes s -> in_class s <> NoBase ->
     exists s', infer_n_nodes kwargs s = (s', Ok tt) /\ in_nodes s' = m /\ in_class s' = in_class s /\ in_norm s' = None).
Proof. exact C36_inferred_count_pf. Qed.
Print Assumptions C36_inferred_count.

Example C36_example : exists s, spin_magnitude_init 0 1 2 "cubic" false = Ok s /\
  exists s', infer_n_nodes (ex_kw 0 (1/2) 1 0 1 0) s = (s', Ok tt) /\ in_nodes s' = 3%nat.
Proof. eexists. split; [reflexivity|]. eexists. split; reflexivity. Qed.

(** C36's last clause (the configured range survives) is false: given the keyword of one more node, a spin-magnitude model of any range,
    kind and regularisation becomes the default model on [0,1], cubic, unregularised; a tilt model the default one on [-1,1]. *)
Theorem C36_range_lost_refuted :
  forall lo hi n kind reg kwargs,
  (forall s, spin_magnitude_init lo hi n kind reg = Ok s -> In ("fa" ++ str_nat n)%string (dkeys kwargs) ->
     exists m s', (n < m)%nat /\ infer_n_nodes kwargs s = (s', Ok tt) /\ spin_magnitude_init 0 1 m "cubic" false = Ok s') /\
  (forall s, spin_tilt_init lo hi n kind reg = Ok s -> In ("fcos_tilt" ++ str_nat n)%string (dkeys kwargs) ->
     exists m s', (n < m)%nat /\ infer_n_nodes kwargs s = (s', Ok tt) /\ spin_tilt_init (-1) 1 m "cubic" false = Ok s').
Proof. exact C36_range_lost_refuted_pf. Qed.
Print Assumptions C36_range_lost_refuted.

(** A model configured on [0, 1/2] whose grid ends at 1 after the call. *)
Example C36_refuted_example : exists s s', spin_magnitude_init 0 (1/2) 2 "linear" true = Ok s /\
  infer_n_nodes (ex_kw 0 (1/4) (1/2) 0 1 0) s = (s', Ok tt) /\ in_xs s' = xlinspace 0 1 30 /\ in_kind s' = "cubic"%string /\ in_regularize s' = false.
Proof. do 2 eexists. split; [reflexivity|]. split; [reflexivity|]. repeat split; reflexivity. Qed.

(** C37. Node values: [v] are the values of the keywords f{base}{i}. Without regularisation they are returned unchanged; with it, if they
    are not all zero, the returned values [v'] are proportional to them and have root-mean-square |rms|. *)
Theorem C37_regularised_values :
  forall s kwargs (v : list R) x,
  mapM (fun k => dlookup k kwargs) (in_fkeys s) = Ok (map Fin v) ->
  mapM (fun k => dlookup k kwargs) (in_xkeys s) = Ok x ->
  (in_regularize s = false -> extract_spline_points s kwargs = Ok (map Fin v, x)) /\
  (forall rms, in_regularize s = true -> dget ("rms" ++ in_base s)%string kwargs = Some (Fin rms) ->
     Exists (fun a => a <> 0) v ->
     exists c, let v' := map (fun a => a * c) v in
       extract_spline_points s kwargs = Ok (map Fin v', x) /\
       sqrt (Rsum (map (fun a => a * a) v') / INR (List.length v')) = Rabs rms /\ (0 <= rms -> 0 <= c)).
Proof. exact C37_regularised_values_pf. Qed.
Print Assumptions C37_regularised_values.

Example C37_hyps : exists s, interp_init NoBase ["a_1"%string] 0 1 3 "cubic" false true = Ok s /\
  mapM (fun k => dlookup k (("rmsa"%string, Fin 2) :: ex_kw 0 (1/2) 1 0 1 0)) (in_fkeys s) = Ok (map Fin [0; 1; 0]) /\
  mapM (fun k => dlookup k (("rmsa"%string, Fin 2) :: ex_kw 0 (1/2) 1 0 1 0)) (in_xkeys s) = Ok (map Fin [0; 1/2; 1]) /\
  dget ("rms" ++ in_base s)%string (("rmsa"%string, Fin 2) :: ex_kw 0 (1/2) 1 0 1 0) = Some (Fin 2) /\
  in_regularize s = true /\ Exists (fun a => a <> 0) [0; 1; 0].
Proof. eexists. repeat (split; [reflexivity|]). right. left. lra. Qed.

(** C37, C81. The advertised names are exactly the keywords needed: with all of them present the node positions and values are read
    without error, and if one is missing a KeyError naming a missing one is raised. There are nodes + nodes names, plus one when
    regularising, all distinct from one another within positions and within values. *)
Theorem C81_names_are_the_keywords :
  forall c param params lo hi n kind log reg s kwargs, interp_init c (param :: params) lo hi n kind log reg = Ok s ->
  ((forall k, In k (interp_variable_names s) -> In k (dkeys kwargs)) -> exists f x, extract_spline_points s kwargs = Ok (f, x)) /\
  (forall k, In k (interp_variable_names s) -> ~ In k (dkeys kwargs) ->
     exists k', extract_spline_points s kwargs = Err (KeyError k') /\ In k' (interp_variable_names s) /\ ~ In k' (dkeys kwargs)) /\
  List.length (interp_variable_names s) = (n + n + if reg then 1 else 0)%nat /\ NoDup (in_xkeys s) /\ NoDup (in_fkeys s).
Proof. exact C81_names_are_the_keywords_pf. Qed.
Print Assumptions C81_names_are_the_keywords.

Example C81_example : exists s, spin_tilt_init (-1) 1 2 "cubic" true = Ok s /\
  interp_variable_names s = ["cos_tilt0"; "cos_tilt1"; "fcos_tilt0"; "fcos_tilt1"; "rmscos_tilt"]%string.
Proof. eexists. split; reflexivity. Qed.

