(** Property theorems (ipl). Proofs are in [ipl_thms]; the vocabulary is in [Spec]. *)
From Coq Require Import Reals Lra Lia Psatz String Bool.
From Coquelicot Require Import Coquelicot.
From Coq Require Import List.
From Verif Require Import Xf Py St Xf_facts Py_facts Calc Spec Utils_model Powerlaw_facts Truncnorm_facts Trap_facts
  Np Np_facts Mass_model Mass_facts Smoothed_model Smoothed_facts SpecSmooth Interp_model Interp_facts smoothed_thms interp_thms.
Import ListNotations.
Local Open Scope R_scope.
From Verif Require Import ipl_thms.

(** C79. The spline-modulated power law built by its constructor, on the first call, at its own mass grid: if the first node is not above the
    grid and the last not below it, the trapezoid of the returned density is exactly 1 (delta_m > 0, or numpy/cupy; legal
    power law with a grid mass in its range; any kernel that is finite on finite arguments). *)
Theorem C79_normalised :
  forall bk spl nodes kind lo hi n nq reg s kwargs (f x : list R) alpha mmin mmax delta_m,
  (1 <= nodes)%nat -> 0 < lo < hi -> ipl_init nodes kind lo hi (n, nq) reg = Ok s ->
  (forall kind nodes f t, List.length f = List.length nodes -> exists r, spl kind (map Fin nodes) (map Fin f) (Fin t) = Fin r) ->
  extract_spline_points (snd s) kwargs = Ok (map Fin f, map Fin x) -> Forall (fun t => 0 < t) x ->
  dget "alpha" kwargs = Some (Fin alpha) -> dget "mmin" kwargs = Some (Fin mmin) -> dget "mmax" kwargs = Some (Fin mmax) ->
  dget_default "delta_m" (Fin 0) kwargs = Fin delta_m -> 0 < mmin < mmax -> bk = Jax \/ alpha <> -1 ->
  (0 < delta_m \/ bk <> Jax) ->
  (exists m, In m (linspace lo hi n) /\ mmin <= m <= mmax) ->
  hd 0 x <= lo -> hi <= last x 0 ->
  let grid := xlinspace lo hi n in
  exists p, snd (ipl_p_m1 bk spl [("mass_1"%string, grid)] kwargs s) = Ok p /\ trapezoid p grid = Fin 1 /\
            Forall (fun v => exists r, v = Fin r /\ 0 <= r) p.
Proof. exact C79_normalised_pf. Qed.
Print Assumptions C79_normalised.

Definition ipl_example_kw : dict xf :=
  [("alpha", Fin 2); ("mmin", Fin 3); ("mmax", Fin 8); ("mass0", Fin 2); ("mass1", Fin 5); ("mass2", Fin 10);
   ("fmass0", Fin 0); ("fmass1", Fin 1); ("fmass2", Fin 0)]%string.
Example C79_hyps : exists s, ipl_init 3 "cubic" 2 10 (5, 2)%nat false = Ok s /\
  extract_spline_points (snd s) ipl_example_kw = Ok (map Fin [0; 1; 0], map Fin [2; 5; 10]) /\ Forall (fun t => 0 < t) [2; 5; 10] /\
  dget_default "delta_m" (Fin 0) ipl_example_kw = Fin 0 /\
  (exists m, In m (linspace 2 10 5) /\ 3 <= m <= 8) /\ hd 0 [2; 5; 10] <= 2 /\ 10 <= last [2; 5; 10] 0.
Proof.
  eexists. split; [reflexivity|]. split; [reflexivity|]. split; [repeat constructor; lra|]. split; [reflexivity|].
  split; [|simpl; lra]. exists 4. split; [|lra]. unfold linspace. apply in_map_iff. exists 1%nat. split; [simpl; lra|apply in_seq; lia].
Qed.

(** C79 is false when the nodes do not span the grid: if some grid mass allowed by the power law lies below the first or above the last
    node, the trapezoid of the returned density is strictly less than 1, because the normalisation ignores the cut at the
    end nodes. *)
Theorem C79_nodes_inside_grid_refuted :
  forall bk spl nodes kind lo hi n nq reg s kwargs (f x : list R) alpha mmin mmax delta_m,
  (1 <= nodes)%nat -> 0 < lo < hi -> ipl_init nodes kind lo hi (n, nq) reg = Ok s ->
  (forall kind nodes f t, List.length f = List.length nodes -> exists r, spl kind (map Fin nodes) (map Fin f) (Fin t) = Fin r) ->
  extract_spline_points (snd s) kwargs = Ok (map Fin f, map Fin x) -> Forall (fun t => 0 < t) x ->
  dget "alpha" kwargs = Some (Fin alpha) -> dget "mmin" kwargs = Some (Fin mmin) -> dget "mmax" kwargs = Some (Fin mmax) ->
  dget_default "delta_m" (Fin 0) kwargs = Fin delta_m -> 0 < mmin < mmax -> bk = Jax \/ alpha <> -1 ->
  (0 < delta_m \/ bk <> Jax) ->
  (exists m, In m (linspace lo hi n) /\ mmin <= m <= mmax /\ (m < hd 0 x \/ last x 0 < m)) ->
  let grid := xlinspace lo hi n in
  exists p v, snd (ipl_p_m1 bk spl [("mass_1"%string, grid)] kwargs s) = Ok p /\ trapezoid p grid = Fin v /\ v < 1.
Proof. exact C79_nodes_inside_grid_refuted_pf. Qed.
Print Assumptions C79_nodes_inside_grid_refuted.

Example C79_refuted_hyps : exists m, In m (linspace 2 10 5) /\ 3 <= m <= 8 /\ (m < hd 0 [5; 6; 7] \/ last [5; 6; 7] 0 < m).
Proof.
  exists 4. split; [|simpl; lra]. unfold linspace. apply in_map_iff. exists 1%nat. split; [simpl; lra|apply in_seq; lia].
Qed.

(** C79 is false on jax with delta_m = 0 (the default): the data carry the smoothing window, the normalisation does not, so the trapezoid
    is strictly less than 1 for every choice of nodes. *)
Theorem C79_jax_unsmoothed_refuted :
  forall spl nodes kind lo hi n nq reg s kwargs (f x : list R) alpha mmin mmax,
  (1 <= nodes)%nat -> 0 < lo < hi -> ipl_init nodes kind lo hi (n, nq) reg = Ok s ->
  (forall kind nodes f t, List.length f = List.length nodes -> exists r, spl kind (map Fin nodes) (map Fin f) (Fin t) = Fin r) ->
  extract_spline_points (snd s) kwargs = Ok (map Fin f, map Fin x) -> Forall (fun t => 0 < t) x ->
  dget "alpha" kwargs = Some (Fin alpha) -> dget "mmin" kwargs = Some (Fin mmin) -> dget "mmax" kwargs = Some (Fin mmax) ->
  dget_default "delta_m" (Fin 0) kwargs = Fin 0 -> 0 < mmin < mmax ->
  (exists m, In m (linspace lo hi n) /\ mmin <= m <= mmax) ->
  let grid := xlinspace lo hi n in
  exists p v, snd (ipl_p_m1 Jax spl [("mass_1"%string, grid)] kwargs s) = Ok p /\ trapezoid p grid = Fin v /\ v < 1.
Proof. exact C79_jax_unsmoothed_refuted_pf. Qed.
Print Assumptions C79_jax_unsmoothed_refuted.

