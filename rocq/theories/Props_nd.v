(** Property theorems (nd). Proofs are in [nd_thms]; the vocabulary is in [Spec]. *)
From Coq Require Import Reals Lra List Bool Arith Lia.
From Verif Require Import Xf Py Np Special Utils_model Xf_facts Nd_model SpecNd.
Import ListNotations.
From Verif Require Import nd_thms.

(** C145. The power law on arrays of any rank and dtype, mixed with scalars and Python numbers: the result is the array of the common shape with the value
    of the power law at the corresponding elements. This needs: data and index have the common shape already (on numpy they may also be both scalars; on jax
    nothing is needed); not both integers; bounds given as Python numbers are not 0. *)
Theorem C145_powerlaw_partial :
  forall bk xx alpha high low p, compatible [xx; alpha; high; low] ->
  (forall b, In b [high; low] -> nd_py b = true -> nd_at b [] <> Fin 0) ->
  nd_int alpha = false \/ (nd_int xx = false /\ forall b, In b [high; low] -> nd_int b = false \/ (nd_py b = true /\ nd_py alpha = true)) ->
  common [nd_shape xx; nd_shape alpha] p -> bk = Jax \/ bk = Numpy /\ p = [] \/ (fits (nd_shape high) p /\ fits (nd_shape low) p) ->
  gives (powerlaw_nd bk xx alpha high low) [xx; alpha; high; low]
    (fun i => powerlaw_body (entry xx i) (entry alpha i) (entry high i) (entry low i)).
Proof. exact C145_powerlaw_partial_pf. Qed.
Print Assumptions C145_powerlaw_partial.

(** C145. Only compatible arguments give a result, on every library; on numpy and cupy a call whose bounds have an axis that data and index have not
    never does, whatever the values: the in-place multiplication does not fit (numpy: unless data and index are both scalars). *)
Theorem C145_powerlaw_shape_refuted :
  forall bk xx alpha high low,
  (forall y, powerlaw_nd bk xx alpha high low = Ok y -> compatible [xx; alpha; high; low]) /\
  (forall p, common [nd_shape xx; nd_shape alpha] p -> bk <> Jax -> p <> [] \/ bk = Cupy -> ~ (fits (nd_shape high) p /\ fits (nd_shape low) p) ->
   exists e, powerlaw_nd bk xx alpha high low = Err e).
Proof. exact C145_powerlaw_shape_refuted_pf. Qed.
Print Assumptions C145_powerlaw_shape_refuted.

(** C145. On numpy an array of integers with an integer index never gives a result, although the same numbers as floats do: integers are not raised to
    negative powers, and the normalisation cannot be multiplied into an integer array. *)
Theorem C145_powerlaw_integers_refuted :
  forall xx alpha high low, nd_int xx = true -> nd_int alpha = true -> nd_shape xx <> [] ->
  exists e, powerlaw_nd Numpy xx alpha high low = Err e.
Proof. exact C145_powerlaw_integers_refuted_pf. Qed.
Print Assumptions C145_powerlaw_integers_refuted.

(** C145. A lower limit 0 given as a Python number, which the checks of the function admit, never gives a result if the upper limit is a Python number too:
    the normalisation for index -1 is computed for every index and divides by 0. *)
Theorem C145_powerlaw_zero_refuted :
  forall bk xx alpha high low, nd_py high = true -> nd_py low = true -> nd_at low [] = Fin 0 ->
  powerlaw_nd bk xx alpha high low = Err ZeroDivisionError.
Proof. exact C145_powerlaw_zero_refuted_pf. Qed.
Print Assumptions C145_powerlaw_zero_refuted.

(** C145. The truncated normal on arrays of any rank and dtype: the same, if data, mean and width together have the axes of the limits (on numpy they may
    also be all scalars; on jax nothing is needed). Otherwise there is no result on numpy and cupy. *)
Theorem C145_truncnorm_partial :
  forall bk xx mu sigma high low p, common [nd_shape xx; nd_shape mu; nd_shape sigma] p ->
  (compatible [xx; mu; sigma; high; low] -> bk = Jax \/ bk = Numpy /\ p = [] \/ (fits (nd_shape high) p /\ fits (nd_shape low) p) ->
   gives (truncnorm_nd bk xx mu sigma high low) [xx; mu; sigma; high; low]
     (fun i => truncnorm_body (entry xx i) (entry mu i) (entry sigma i) (entry high i) (entry low i))) /\
  (bk <> Jax -> p <> [] \/ bk = Cupy -> ~ (fits (nd_shape high) p /\ fits (nd_shape low) p) ->
   exists e, truncnorm_nd bk xx mu sigma high low = Err e).
Proof. exact C145_truncnorm_partial_pf. Qed.
Print Assumptions C145_truncnorm_partial.

(** C145. The Beta distribution on compatible arrays of any rank and dtype, on every library: the array of the common shape with the value of the Beta
    distribution at the corresponding elements. *)
Theorem C145_beta :
  forall bk xx alpha beta scale, compatible [xx; alpha; beta; scale] ->
  gives (beta_dist_nd bk xx alpha beta scale) [xx; alpha; beta; scale]
    (fun i => beta_dist_body (entry xx i) (entry alpha i) (entry beta i) (entry scale i)).
Proof. exact C145_beta_pf. Qed.
Print Assumptions C145_beta.

(** C145. The call made by the mass-ratio models (mass.py 182, 437, 615, 637) is one of those that work: mass ratios and primary masses of one shape, of any
    dtype, with a scalar float index and a scalar smallest mass, on every library. *)
Theorem C145_mass_ratio :
  forall bk q m1 beta mmin, nd_shape m1 = nd_shape q -> nd_shape beta = [] -> nd_shape mmin = [] -> nd_int beta = false -> nd_py m1 = false ->
  exists low, ndivide bk mmin m1 = Ok low /\
  gives (powerlaw_nd bk q beta (py_int (Fin 1)) low) [q]
    (fun i => powerlaw_body (entry q i) (nd_at beta []) (Fin 1) (fdiv (nd_at mmin []) (entry m1 i))).
Proof. exact C145_mass_ratio_pf. Qed.
Print Assumptions C145_mass_ratio.

(** Three data, a scalar index and two upper limits along another axis (numpy shapes (3,), () and (2,1)): numpy and cupy raise, jax gives a (2,3) array. *)
Example C145_refuted_met : forall bk,
  let xx := {| nd_py := false; nd_int := false; nd_shape := [3]; nd_at := fun i => Fin (2 + INR (nth 0 i O))%R |} in
  let high := {| nd_py := false; nd_int := false; nd_shape := [1; 2]; nd_at := fun i => Fin (10 + INR (nth 1 i O))%R |} in
  let r := powerlaw_nd bk xx (py_float (Fin 2)) high (py_float (Fin 1)) in
  (bk <> Jax -> exists e, r = Err e) /\
  (bk = Jax -> gives r [xx; py_float (Fin 2); high; py_float (Fin 1)] (fun i => powerlaw_body (entry xx i) (Fin 2) (entry high i) (Fin 1))).
Proof.
  intros bk xx high r. assert (C : common [nd_shape xx; []] [3]).
  { split; [intros u [<-|[<-|[]]]; cbn; auto|]. intros t T. apply (T [3]). now left. }
  split.
  - intros J. apply (C145_powerlaw_shape_refuted bk xx (py_float (Fin 2)) high (py_float (Fin 1))) with (p := [3]); [exact C|exact J|left; discriminate|].
    cbn. tauto.
  - intros J. apply (C145_powerlaw_partial bk xx (py_float (Fin 2)) high (py_float (Fin 1)) [3]).
    + exists [3; 2]. intros a [<-|[<-|[<-|[<-|[]]]]]; cbn; auto.
    + intros b [<-|[<-|[]]] P; [discriminate P|]. cbn. intros F. injection F as F. lra.
    + now left.
    + exact C.
    + now left.
Qed.
(** Data and lower limits along one axis, scalar index and upper limit: the call of the mass-ratio models, with three samples. *)
Example C145_met : forall bk,
  let q := {| nd_py := false; nd_int := false; nd_shape := [3]; nd_at := fun i => Fin ((1 + INR (nth 0 i O)) / 4)%R |} in
  let m1 := {| nd_py := false; nd_int := true; nd_shape := [3]; nd_at := fun i => Fin (30 + INR (nth 0 i O))%R |} in
  nd_shape m1 = nd_shape q /\ nd_shape (py_float (Fin 1)) = [] /\ nd_int (py_float (Fin 1)) = false /\ nd_py m1 = false /\
  compatible [q; m1; py_float (Fin 1); py_int (Fin 5)] /\
  (exists low, ndivide bk (py_int (Fin 5)) m1 = Ok low /\ nd_at low [2] = Fin (5 / 32)%R).
Proof.
  intros bk q m1. repeat (split; [reflexivity|]). split.
  - exists [3]. intros a [<-|[<-|[<-|[<-|[]]]]]; cbn; auto.
  - eexists. split; [reflexivity|]. cbn. unfold Reqb. destruct (Req_EM_T _ _) as [E|_]; [lra|]. f_equal. field.
Qed.

