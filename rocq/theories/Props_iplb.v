(** Property theorems (iplb). Proofs are in [iplb_thms]; the vocabulary is in [Spec]. *)
From Coq Require Import Reals Lra Lia Psatz String Bool.
From Coquelicot Require Import Coquelicot.
From Coq Require Import List.
From Verif Require Import Xf Py St Xf_facts Py_facts Calc Spec Utils_model Powerlaw_facts Truncnorm_facts Trap_facts
  Np Np_facts Mass_model Mass_facts Smoothed_model Smoothed_facts SpecSmooth SpecClass Interp_model Interp_facts smoothed_thms smooth2_thms interp_thms ipl_thms.
Import ListNotations.
Local Open Scope R_scope.
Local Opaque linspace xlinspace.
From Verif Require Import iplb_thms.

(** C30. The spline-modulated power law: [beta] is required. *)
Theorem C30_spline_beta_required :
  forall bk spl interp s ds kwargs, dget "beta" kwargs = None -> ipl_call bk spl interp ds kwargs s = (s, Err (KeyError "beta")).
Proof. exact C30_spline_beta_required_pf. Qed.
Print Assumptions C30_spline_beta_required.

(** C30. On numpy and cupy the spline-modulated power law raises ValueError for limits outside its grid, leaving the instance unchanged. *)
Theorem C30_spline_bounds_rejected :
  forall bk spl interp s ds kwargs beta, bk <> Jax -> dget "beta" kwargs = Some beta ->
  flt (dget_default "mmin" (sm_mmin (fst s)) kwargs) (sm_mmin (fst s)) = true \/ fgt (dget_default "mmax" (sm_mmax (fst s)) kwargs) (sm_mmax (fst s)) = true ->
  ipl_call bk spl interp ds kwargs s = (s, Err ValueError).
Proof. exact C30_spline_bounds_rejected_pf. Qed.
Print Assumptions C30_spline_bounds_rejected.

Example C30_spline_hyps : exists s, ipl_init 3 "cubic" 2 10 (5, 2)%nat false = Ok s /\
  flt (dget_default "mmin" (sm_mmin (fst s)) [("mmin"%string, Fin 1)]) (sm_mmin (fst s)) = true.
Proof. eexists. split; [reflexivity|]. apply Rltb_true; lra. Qed.

(** C31 for the spline-modulated power law holds for some histories only (in general it is false, [C31_spline_masses_refuted]): every earlier call, failing or not,
    was made with the same array of masses and, when its node keywords were complete, the same node positions. *)
Theorem C31_spline_partial :
  forall bk spl interp nodes kind lo hi n nq reg s history dataset kwargs m1 q x,
  ipl_init nodes kind lo hi (n, nq) reg = Ok s ->
  dget "mass_1" dataset = Some m1 -> dget "mass_ratio" dataset = Some q -> List.length q = List.length m1 ->
  (forall c, In c ((dataset, kwargs) :: history) -> dget "mass_1" (fst c) = Some m1 /\
     forall f x', extract_spline_points (snd s) (ddel "beta" (snd c)) = Ok (f, x') -> x' = x) ->
  let call := ipl_call bk spl interp in
  snd (call dataset kwargs (run call history s)) = snd (call dataset kwargs s).
Proof. exact C31_spline_partial_pf. Qed.
Print Assumptions C31_spline_partial.

Example C31_spline_hyps : exists s, ipl_init 3 "cubic" 2 10 (5, 2)%nat false = Ok s /\
  (forall f x', extract_spline_points (snd s) (ddel "beta" (("beta"%string, Fin 1) :: [("mass0", Fin 2); ("mass1", Fin 5); ("mass2", Fin 10); ("fmass0", Fin 0); ("fmass1", Fin 1); ("fmass2", Fin 0)]%string)) = Ok (f, x') ->
     x' = map Fin [2; 5; 10]).
Proof. eexists. split; [reflexivity|]. intros f x' H. cbn in H. injection H as _ <-. reflexivity. Qed.

(** C31 is false for the spline-modulated power law: after an evaluation at mass a, the density returned at mass b with the same legal hyper-parameters carries the spline's
    value at a, so it is the right one multiplied by exp(spline(a) - spline(b)), for every kernel and every two masses in the common range of the limits, the grid and the nodes. *)
Theorem C31_spline_masses_refuted :
  forall bk spl nodes kind lo hi n nq reg s kwargs (f x : list R) alpha mmin mmax delta_m a b at_a at_b,
  (1 <= nodes)%nat -> 0 < lo < hi -> ipl_init nodes kind lo hi (n, nq) reg = Ok s ->
  (forall kind nodes f t, List.length f = List.length nodes -> exists r, spl kind (map Fin nodes) (map Fin f) (Fin t) = Fin r) ->
  extract_spline_points (snd s) kwargs = Ok (map Fin f, map Fin x) -> Forall (fun t => 0 < t) x ->
  dget "alpha" kwargs = Some (Fin alpha) -> dget "mmin" kwargs = Some (Fin mmin) -> dget "mmax" kwargs = Some (Fin mmax) ->
  dget_default "delta_m" (Fin 0) kwargs = Fin delta_m -> 0 < mmin < mmax -> bk = Jax \/ alpha <> -1 ->
  (0 < delta_m \/ bk <> Jax) ->
  (exists m, In m (linspace lo hi n) /\ mmin <= m <= mmax) ->
  0 < a -> mmin <= b <= mmax -> b <= hi -> hd 0 x <= b <= last x 0 ->
  spl kind (map Fin (map ln x)) (map Fin f) (Fin (ln a)) = Fin at_a -> spl kind (map Fin (map ln x)) (map Fin f) (Fin (ln b)) = Fin at_b ->
  let density := fun m => ipl_p_m1 bk spl [("mass_1"%string, [Fin m])] kwargs in
  exists v, 0 < v /\ snd (density b s) = Ok [Fin v] /\ snd (density b (fst (density a s))) = Ok [Fin (v * exp (at_a - at_b))].
Proof. exact C31_spline_masses_refuted_pf. Qed.
Print Assumptions C31_spline_masses_refuted.

Example C31_spline_masses_hyps : 0 < 4 /\ 3 <= 5 <= 8 /\ 5 <= 10 /\ hd 0 [2; 5; 10] <= 5 <= last [2; 5; 10] 0 /\
  exists spl : string -> list xf -> list xf -> xf -> xf, (forall kind nodes f t, List.length f = List.length nodes -> exists r, spl kind (map Fin nodes) (map Fin f) (Fin t) = Fin r) /\
    forall kind nodes f t, spl kind nodes f (Fin t) = Fin t.
Proof. repeat split; try (simpl; lra). exists (fun _ _ _ t => t). split; intros; eauto. Qed.

(** C101. The spline-modulated power law, freshly built and called on all pairs (mass, ratio) of its two grids, is jointly normalised: the iterated trapezoidal integral of the
    returned values is exactly 1, when the end nodes enclose the grid, delta_m > 0, some grid mass lies between the limits and mmin is not a grid mass. *)
Theorem C101_spline_joint_normalised :
  forall bk spl interp nodes kind lo hi n nq reg s kwargs (f x : list R) alpha mmin mmax delta_m beta,
  (1 <= nodes)%nat -> 0 < lo < hi -> ipl_init nodes kind lo hi (n, nq) reg = Ok s -> exact_at_nodes interp ->
  (forall kind nodes f t, List.length f = List.length nodes -> exists r, spl kind (map Fin nodes) (map Fin f) (Fin t) = Fin r) ->
  dget "beta" kwargs = Some (Fin beta) ->
  extract_spline_points (snd s) (ddel "beta" kwargs) = Ok (map Fin f, map Fin x) -> Forall (fun t => 0 < t) x ->
  dget "alpha" kwargs = Some (Fin alpha) -> dget "mmin" kwargs = Some (Fin mmin) -> dget "mmax" kwargs = Some (Fin mmax) ->
  dget "delta_m" kwargs = Some (Fin delta_m) -> lo <= mmin < mmax -> mmax <= hi -> bk = Jax \/ alpha <> -1 -> 0 < delta_m ->
  (exists m, In m (linspace lo hi n) /\ mmin <= m <= mmax) -> ~ In (Fin mmin) (sm_m1s (fst s)) ->
  hd 0 x <= lo -> hi <= last x 0 ->
  exists rows, snd (ipl_call bk spl interp (grid_dataset (sm_m1s (fst s)) (sm_qs (fst s))) kwargs s) = Ok (List.concat rows) /\
    List.length rows = n /\ Forall (fun row => List.length row = nq) rows /\
    trapezoid (map (fun row => trapezoid row (sm_qs (fst s))) rows) (sm_m1s (fst s)) = Fin 1.
Proof. exact C101_spline_joint_normalised_pf. Qed.
Print Assumptions C101_spline_joint_normalised.

Example C101_spline_hyps : exists s, ipl_init 3 "cubic" 2 10 (4, 2)%nat false = Ok s /\
  (let kw := [("alpha", Fin 2); ("mmin", Fin 3); ("mmax", Fin 8); ("delta_m", Fin 1); ("beta", Fin 1); ("mass0", Fin 2); ("mass1", Fin 5); ("mass2", Fin 10); ("fmass0", Fin 0); ("fmass1", Fin 1); ("fmass2", Fin 0)]%string in
   extract_spline_points (snd s) (ddel "beta" kw) = Ok (map Fin [0; 1; 0], map Fin [2; 5; 10])) /\
  (exists m, In m (linspace 2 10 4) /\ 3 <= m <= 8).
Proof.
  eexists. split; [reflexivity|]. split; [reflexivity|]. exists (14/3). split; [|lra]. Transparent linspace. unfold linspace. apply in_map_iff. exists 1%nat. split; [simpl; lra|apply in_seq; lia].
Qed.

