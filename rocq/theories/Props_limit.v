(** Property theorems (limit). Proofs are in [limit_thms]; the vocabulary is in [Spec]. *)
From Coq Require Import Reals Lra Lia Psatz String Bool.
From Coquelicot Require Import Coquelicot.
From Coq Require Import List.
From Verif Require Import Xf Py St Xf_facts Py_facts Calc Spec Utils_model Powerlaw_facts Truncnorm_facts Trap_facts Np Np_facts
  Mass_model Mass_facts Smoothed_model Smoothed_facts smoothed_thms.
Import ListNotations.
Local Open Scope R_scope.
From Verif Require Import limit_thms.

(** C119. As the smoothing length tends to zero the density of the primary mass does not move any more: for all small positive smoothing lengths it is the
    primary model divided by the trapezoidal sum [total] of the primary model over the part of the grid between mmin and the largest mass. *)
Theorem C119_small_smoothing :
  forall bk primary s (kw : R -> dict xf) kw0 mmin mmax grid (f : R -> R) m, sm_m1s s = map Fin grid -> sm_mmax s = Fin mmax ->
  (forall d, dget "delta_m" (kw d) = Some (Fin d) /\ ddel "delta_m" (kw d) = kw0 /\ dget_default "mmin" (sm_mmin s) (kw d) = Fin mmin) ->
  dget_default "mmin" (sm_mmin s) kw0 = Fin mmin ->
  (forall x, In x (m :: grid) -> primary kw0 (Fin x) = Ok (Fin (f x))) ->
  ~ In mmin grid -> mmin < m <= mmax ->
  let total := Rtrap (map (fun x => if Rleb mmin x && Rleb x mmax then f x else 0) grid) grid in total <> 0 ->
  exists small, 0 < small /\ forall delta, 0 < delta < small ->
    p_m1 bk primary s [("mass_1"%string, [Fin m])] (kw delta) = Ok [Fin (f m / total)].
Proof. exact C119_small_smoothing_pf. Qed.
Print Assumptions C119_small_smoothing.

(** C119, refuted. With smoothing switched off the density is the primary model itself on numpy and cupy, so the density jumps at a smoothing length of zero
    whenever [total] is not one: every small positive smoothing length gives the same different value. *)
Theorem C119_jump_refuted :
  forall bk primary s (kw : R -> dict xf) kw0 mmin mmax grid (f : R -> R) m, bk <> Jax -> sm_m1s s = map Fin grid -> sm_mmax s = Fin mmax ->
  (forall d, dget "delta_m" (kw d) = Some (Fin d) /\ ddel "delta_m" (kw d) = kw0 /\ dget_default "mmin" (sm_mmin s) (kw d) = Fin mmin) ->
  dget_default "mmin" (sm_mmin s) kw0 = Fin mmin ->
  (forall x, In x (m :: grid) -> primary kw0 (Fin x) = Ok (Fin (f x))) ->
  ~ In mmin grid -> mmin < m <= mmax ->
  let total := Rtrap (map (fun x => if Rleb mmin x && Rleb x mmax then f x else 0) grid) grid in total <> 0 -> total <> 1 -> f m <> 0 ->
  exists small v0 v, 0 < small /\ v0 <> v /\ p_m1 bk primary s [("mass_1"%string, [Fin m])] (kw 0) = Ok [Fin v0] /\
    forall delta, 0 < delta < small -> p_m1 bk primary s [("mass_1"%string, [Fin m])] (kw delta) = Ok [Fin v].
Proof. exact C119_jump_refuted_pf. Qed.
Print Assumptions C119_jump_refuted.

(** C119, refuted for the power law with a peak as the library builds it (three grid masses from 2 to 4, mmin = 9/4, no peak): 4/7 without
    smoothing, 2/3 for every small positive smoothing length. *)
Theorem C119_single_peak_refuted :
  forall bk cache s, bk <> Jax -> smoothed_init 2 4 (3%nat, 2%nat) cache = Ok s ->
  let density := fun delta => p_m1 bk (class_primary SinglePeak bk) s [("mass_1"%string, [Fin 3])]
                   (single_peak_kw 0 (9/4) 4 0 3 1 delta ++ class_kwargs SinglePeak (sm_mmax s))%list in
  density 0 = Ok [Fin (4/7)] /\ exists small, 0 < small /\ forall delta, 0 < delta < small -> density delta = Ok [Fin (2/3)].
Proof. exact C119_single_peak_refuted_pf. Qed.
Print Assumptions C119_single_peak_refuted.

Example C119_hyps : Numpy <> Jax /\ (exists s, smoothed_init 2 4 (3%nat, 2%nat) true = Ok s /\ sm_mmax s = Fin 4) /\ ~ In (9/4) [2;3;4] /\ 9/4 < 3 <= 4 /\
  (forall d, dget "delta_m" (single_peak_kw 0 (9/4) 4 0 3 1 d) = Some (Fin d)).
Proof. repeat split; try lra; try discriminate. - eexists. split; reflexivity. - intros [E|[E|[E|[]]]]; lra. Qed.

