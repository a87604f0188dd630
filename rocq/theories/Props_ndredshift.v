(** Property theorems (ndredshift). Proofs are in [ndredshift_thms]; the vocabulary is in [Spec]. *)
From Coq Require Import Reals Lra String.
From Coq Require Import List Bool Arith Lia.
From Verif Require Import Xf Py Np Special Utils_model Cosmo_model Redshift_model Xf_facts Nd_model SpecNd nd_thms NdModels_model SpecNdModels ndmodels_thms NdRedshift_model.
Import ListNotations.
From Verif Require Import ndredshift_thms.

(** C149. The redshift models on a column of any shape, of integers or floats, on every library and with every cosmology: rate evolution, spacetime volume
    and probability are arrays of that shape with the value at each redshift, or the exception that every one of these evaluations raises (for instance a
    missing parameter). The parameters may be Python ints, Python floats or float scalars of the library. This needs: not integer redshifts with a negative
    integer slope; a peak redshift given as a Python number is above -1. *)

Theorem C149_redshift_partial :
  forall bk r s z parameters, column s z -> (forall name p, In (name, p) parameters -> parameter p) -> rs_zs r <> [] ->
  (forall p, dget "lamb" parameters = Some p -> not_both_integers z p \/ flt (value p) (Fin 0) = false) ->
  (forall p, dget "gamma" parameters = Some p -> not_both_integers z p \/ flt (value p) (Fin 0) = false) ->
  (forall p, dget "z_peak" parameters = Some p -> nd_py p = true -> flt (Fin (-1)) (value p) = true) ->
  let numbers := map (fun p => (fst p, value (snd p))) parameters in
  forall psi_nd, (psi_nd = powerlaw_psi_nd bk /\ rs_rate r = powerlaw_rate) \/ (psi_nd = madau_psi_nd bk /\ rs_rate r = madau_rate) ->
  elementwise (psi_nd z parameters) s (fun i => ra_psi (rs_rate r) (nd_at z i) numbers) /\
  (forall bounds, elementwise (differential_spacetime_volume_nd bk psi_nd r z bounds parameters) s
     (fun i => differential_spacetime_volume_at r bounds numbers (nd_at z i))) /\
  elementwise (probability_nd bk psi_nd r z parameters) s
    (fun i => bind (probability r [("redshift"%string, [nd_at z i])] numbers) (fun l => Ok (hd NaN l))).
Proof. exact C149_redshift_partial_pf. Qed.
Print Assumptions C149_redshift_partial.

(** C149. The conditions are needed: on numpy a non-empty array of integer redshifts with a slope given as a negative Python integer raises ValueError, although
    the same redshifts as floats are accepted. *)

Theorem C149_integers_refuted :
  forall r s z lamb, column s z -> (exists i, inside s i) -> nd_int z = true -> nd_py lamb = true -> nd_int lamb = true -> nd_shape lamb = [] ->
  flt (value lamb) (Fin 0) = true -> forall bounds,
  differential_spacetime_volume_nd Numpy (powerlaw_psi_nd Numpy) r z bounds [("lamb"%string, lamb)] = Err ValueError.
Proof. exact C149_integers_refuted_pf. Qed.
Print Assumptions C149_integers_refuted.

(** Integer redshifts 0, 1, 2 and 3 as a 2 x 2 array with the rate (1 + z)^2, the slope a Python integer. *)
Example C149_met : forall bk mixin zmax,
  let r := {| rs_mixin := mixin; rs_zmax := zmax; rs_zs := [Fin 0; Fin zmax]; rs_rate := powerlaw_rate |} in
  let z := {| nd_py := false; nd_int := true; nd_shape := [2; 2]; nd_at := fun i => Fin (INR (nth 0 i 0 + 2 * nth 1 i 0)) |} in
  column [2; 2] z /\ inside [2; 2] [1; 1] /\
  elementwise (probability_nd bk (powerlaw_psi_nd bk) r z [("lamb"%string, py_int (Fin 2))]) [2; 2]
    (fun i => bind (probability r [("redshift"%string, [nd_at z i])] [("lamb"%string, Fin 2)]) (fun l => Ok (hd NaN l))).
Proof.
  intros bk mixin zmax r z. split; [split; reflexivity|]. split; [repeat constructor|].
  refine (proj2 (proj2 (C149_redshift_partial bk r [2; 2] z [("lamb"%string, py_int (Fin 2))] _ _ _ _ _ _ (powerlaw_psi_nd bk) (or_introl (conj eq_refl eq_refl))))).
  - split; reflexivity.
  - intros name p [E|[]]. injection E as _ <-. split; [reflexivity|now left].
  - discriminate.
  - intros p E. injection E as <-. right. cbn. unfold flt, Rltb. destruct (Rlt_dec 2 0); [lra|reflexivity].
  - discriminate.
  - discriminate.
Qed.

