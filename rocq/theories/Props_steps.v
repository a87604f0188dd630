(** Property theorems (steps). Proofs are in [steps_thms]; the vocabulary is in [Spec]. *)
From Coq Require Import Reals Lra Lia Psatz String Bool.
From Coquelicot Require Import Coquelicot.
From Coq Require Import List.
From Verif Require Import Xf Py St Xf_facts Py_facts Calc Spec Utils_model Powerlaw_facts Truncnorm_facts Trap_facts Np Np_facts
  Mass_model Mass_facts Smoothed_model Smoothed_facts smoothed_thms smooth2_thms SpecClass SpecCont Gauss_facts cont_thms.
Import ListNotations.
Local Open Scope R_scope.
Local Opaque linspace xlinspace.
From Verif Require Import steps_thms.

(** C131. The smoothed power law (no peak) does not notice mmax between two masses of the grid: if no grid mass lies in (mmax, mmax'], both give the same density. *)
Theorem C131_flat :
  forall bk lo hi n nq cache s alpha mmin mmax mmax' mpp sigpp delta m,
  smoothed_init lo hi (n, nq) cache = Ok s -> 0 < lo < hi -> 0 < mmin < mmax -> mmax <= mmax' -> mmax' <= hi -> 0 < sigpp -> 0 < delta -> slope_ok bk alpha ->
  mmin <= m <= mmax -> (exists y, In (Fin y) (sm_m1s s) /\ mmin <= y <= mmax) -> (forall y, In (Fin y) (sm_m1s s) -> ~ mmax < y <= mmax') ->
  let density := fun top => p_m1 bk (class_primary SinglePeak bk) s [("mass_1"%string, [Fin m])]
                   (single_peak_kw alpha mmin top 0 mpp sigpp delta ++ class_kwargs SinglePeak (sm_mmax s))%list in
  density mmax' = density mmax /\ exists v, 0 < v /\ density mmax = Ok [Fin v].
Proof. exact C131_flat_pf. Qed.
Print Assumptions C131_flat.

(** C131, refuted. The density of the smoothed power law is not a continuous function of mmax: at every mass [x] of the grid above mmin it jumps, for every smaller mass [m]: just below [x] it has a constant value
    larger than the value at [x]. *)
Theorem C131_jump_refuted :
  forall bk lo hi n nq cache s alpha mmin mpp sigpp delta m x,
  smoothed_init lo hi (n, nq) cache = Ok s -> 0 < lo < hi -> 0 < mmin -> 0 < sigpp -> 0 < delta -> slope_ok bk alpha ->
  In (Fin x) (sm_m1s s) -> mmin <= m < x -> (exists y, In (Fin y) (sm_m1s s) /\ mmin <= y < x) ->
  let density := fun top => p_m1 bk (class_primary SinglePeak bk) s [("mass_1"%string, [Fin m])]
                   (single_peak_kw alpha mmin top 0 mpp sigpp delta ++ class_kwargs SinglePeak (sm_mmax s))%list in
  exists small v w, 0 < small /\ 0 < v < w /\ density x = Ok [Fin v] /\ forall mmax, x - small < mmax < x -> density mmax = Ok [Fin w].
Proof. exact C131_jump_refuted_pf. Qed.
Print Assumptions C131_jump_refuted.

Local Transparent linspace xlinspace.
(** Three grid masses 2, 3 and 4; mmin = 2; the density at 5/2 jumps when mmax reaches 3. *)
Example C131_jump_met : exists s, smoothed_init 2 4 (3%nat, 2%nat) true = Ok s /\ In (Fin 3) (sm_m1s s) /\ In (Fin 2) (sm_m1s s).
Proof.
  destruct (smoothed_init 2 4 (3%nat, 2%nat) true) as [s|e] eqn:Hs; [|discriminate Hs]. exists s. split; [reflexivity|].
  destruct (init_grid _ _ _ _ _ _ Hs) as (_ & E & _). rewrite E. split; apply in_map; unfold linspace; simpl; [right; left|left]; lra.
Qed.

(** C131. With smoothing, the density of the primary mass varies continuously with mmin, delta_m, the mass and all other hyper-parameters if the primary model does so at the mass and at every mass of the grid, and
    mmin is not one of the grid masses. *)
Theorem C131_continuous :
  forall (T : UniformSpace) bk primary s (kw : T -> dict xf) (mmin delta mass : T -> R) grid mx t,
  sm_m1s s = map Fin grid -> strictly_increasing grid -> (2 <= List.length grid)%nat -> sm_mmax s = Fin mx ->
  (forall u, dget "delta_m" (kw u) = Some (Fin (delta u)) /\ dget_default "mmin" (sm_mmin s) (kw u) = Fin (mmin u)) ->
  continuous mmin t -> continuous delta t -> continuous mass t -> 0 < delta t -> mmin t < mass t < mx -> ~ In (mmin t) grid ->
  continuous_call (fun u => primary (ddel "delta_m" (kw u)) (Fin (mass u))) t ->
  (forall x, In x grid -> continuous_call (fun u => primary (ddel "delta_m" (kw u)) (Fin x)) t) ->
  (forall x v, In x grid -> primary (ddel "delta_m" (kw t)) (Fin x) = Ok (Fin v) -> 0 <= v) ->
  (exists x v, In x grid /\ mmin t <= x <= mx /\ primary (ddel "delta_m" (kw t)) (Fin x) = Ok (Fin v) /\ 0 < v) ->
  exists g : T -> R, continuous g t /\ locally t (fun u => p_m1 bk primary s [("mass_1"%string, [Fin (mass u)])] (kw u) = Ok [Fin (g u)]).
Proof. exact C131_continuous_pf. Qed.
Print Assumptions C131_continuous.

(** C131. In particular the smoothed power law with a peak varies continuously with the mass and all its hyper-parameters, jointly, wherever neither mmin nor mmax is one of the grid masses (what is missing: the jumps at the grid masses above). *)
Theorem C131_single_peak_partial :
  forall (T : UniformSpace) bk lo hi n nq cache s (alpha mmin mmax lam mpp sigpp delta mass : T -> R) t,
  smoothed_init lo hi (n, nq) cache = Ok s -> 0 < lo < hi ->
  continuous alpha t -> continuous mmin t -> continuous mmax t -> continuous lam t -> continuous mpp t -> continuous sigpp t -> continuous delta t -> continuous mass t ->
  0 < mmin t < mass t -> mass t < mmax t -> mmax t <= hi -> 0 <= lam t <= 1 -> 0 < sigpp t -> 0 < delta t -> slope_ok bk (alpha t) ->
  ~ In (Fin (mmin t)) (sm_m1s s) -> ~ In (Fin (mmax t)) (sm_m1s s) -> (exists y, In (Fin y) (sm_m1s s) /\ mmin t < y < mmax t) ->
  exists g : T -> R, continuous g t /\ locally t (fun u => p_m1 bk (class_primary SinglePeak bk) s [("mass_1"%string, [Fin (mass u)])]
    (single_peak_kw (alpha u) (mmin u) (mmax u) (lam u) (mpp u) (sigpp u) (delta u) ++ class_kwargs SinglePeak (sm_mmax s))%list = Ok [Fin (g u)]).
Proof. exact C131_single_peak_partial_pf. Qed.
Print Assumptions C131_single_peak_partial.

(** Grid 2, 3, 4; mmin passes 9/4 and mmax 7/2 while the peak moves. *)
Example C131_continuous_met : forall s, smoothed_init 2 4 (3%nat, 2%nat) true = Ok s ->
  exists g : R -> R, continuous g 0 /\ locally 0 (fun u : R => p_m1 Numpy (class_primary SinglePeak Numpy) s [("mass_1"%string, [Fin 3])]
    (single_peak_kw (1 + u) (9/4 + u) (7/2 - u) (1/2) (3 + u) 1 (1 + u) ++ class_kwargs SinglePeak (sm_mmax s))%list = Ok [Fin (g u)]).
Proof.
  intros s Hs. assert (E : sm_m1s s = [Fin 2; Fin 3; Fin 4]). { destruct (init_grid _ _ _ _ _ _ Hs) as (_ & E & _). rewrite E. unfold linspace. simpl. repeat f_equal; lra. }
  apply (C131_single_peak_partial R_UniformSpace Numpy 2 4 3%nat 2%nat true s (fun u => 1 + u) (fun u => 9/4 + u) (fun u => 7/2 - u) (fun _ => 1/2) (fun u => 3 + u) (fun _ => 1) (fun u => 1 + u) (fun _ => 3) 0 Hs);
    try lra; try (apply cont_of_deriv; auto_derive; exact I); try (right; intros ?; lra).
  - rewrite E. intros [X|[X|[X|[]]]]; injection X; lra.
  - rewrite E. intros [X|[X|[X|[]]]]; injection X; lra.
  - exists 3. rewrite E. split; [simpl; auto|lra].
Qed.

