(** Property theorems (bound). Proofs are in [bound_thms]; the vocabulary is in [Spec]. *)
From Coq Require Import Reals Lra Lia Psatz String Bool.
From Coquelicot Require Import Coquelicot.
From Coq Require Import List.
From Verif Require Import Xf Py Xf_facts Py_facts Calc Np Vt_model vt_thms Hyperpe_model SpecHyper hypera_thms hyperc_thms SpecInvar invar_thms SpecBound.
Import ListNotations.
Local Open Scope R_scope.
From Verif Require Import bound_thms.

(** C108. If all weights of all events lie between [a] and [b], the log likelihood lies between N ln (a / P_det) and N ln (b / P_det). *)
Theorem C108_bounds :
  forall bk prob sel conv L parameters converted W s v a b, li_kind L = Hyper -> conv parameters = Ok converted ->
  weights_are prob L converted W -> positive_weights L W -> List.length W = li_n L ->
  (sel converted = Ok (ValueAndVariance (Fin s) (Fin v)) \/ sel converted = Ok (Value (Fin s))) -> 0 < s ->
  0 < a -> Forall (Forall (fun w => a <= w <= b)) W -> (0 < li_n L)%nat ->
  exists ln_l variance, ln_likelihood_and_variance bk prob sel conv L parameters = Ok (Fin ln_l, variance) /\
    INR (li_n L) * ln (a / s) <= ln_l <= INR (li_n L) * ln (b / s).
Proof. exact C108_bounds_pf. Qed.
Print Assumptions C108_bounds.

Definition ex_Lb (k : kind) : likelihood := {| li_kind := k; li_data := [("x"%string, [[Fin 1; Fin 2]; [Fin 3; Fin 4]]); ("y"%string, [[Fin 2; Fin 2]; [Fin 3; Fin 5]])]; li_prior := None;
  li_noise := NaN; li_n := 2; li_samples := 2; li_maxu := PInf; li_max_variance := PInf |}.
Definition ex_pb (c : string) (d : dict matrix) (p : dict xf) : result matrix := dlookup c d.
Definition ex_sb (s : R) (p : dict xf) : result selection := Ok (ValueAndVariance (Fin s) (Fin 0)).
Lemma ex_Wx k : weights_are (ex_pb "x") (ex_Lb k) [] [[1; 2]; [3; 4]] /\ positive_weights (ex_Lb k) [[1; 2]; [3; 4]].
Proof. split; [exists [[1; 2]; [3; 4]]; split; reflexivity|]. split; [simpl; lia|]. repeat constructor; lra. Qed.
Lemma ex_Wy k : weights_are (ex_pb "y") (ex_Lb k) [] [[2; 2]; [3; 5]] /\ positive_weights (ex_Lb k) [[2; 2]; [3; 5]].
Proof. split; [exists [[2; 2]; [3; 5]]; split; reflexivity|]. split; [simpl; lia|]. repeat constructor; lra. Qed.
Example C108_bounds_example : exists ln_l variance, ln_likelihood_and_variance Numpy (ex_pb "x") (ex_sb (1/2)) (fun p => Ok p) (ex_Lb Hyper) [] = Ok (Fin ln_l, variance) /\
  INR 2 * ln (1 / (1/2)) <= ln_l <= INR 2 * ln (4 / (1/2)).
Proof.
  destruct (ex_Wx Hyper) as [A B]. apply (C108_bounds Numpy (ex_pb "x") (ex_sb (1/2)) (fun p => Ok p) (ex_Lb Hyper) [] [] [[1; 2]; [3; 4]] (1/2) 0 1 4); auto; try lra.
  - repeat constructor; lra.
  - simpl; lia.
Qed.

(** C108. Larger weights and a smaller selection value give a larger likelihood; strictly larger if the selection value is strictly smaller. *)
Theorem C108_monotone :
  forall bk prob prob' sel sel' conv conv' L parameters parameters' converted converted' W W' s s' v v', li_kind L = Hyper ->
  conv parameters = Ok converted -> conv' parameters' = Ok converted' ->
  weights_are prob L converted W -> weights_are prob' L converted' W' -> positive_weights L W -> positive_weights L W' ->
  sel converted = Ok (ValueAndVariance (Fin s) (Fin v)) -> sel' converted' = Ok (ValueAndVariance (Fin s') (Fin v')) -> 0 < s' ->
  Forall2 (Forall2 Rle) W W' -> s' <= s ->
  exists ln_l ln_l' variance variance',
    ln_likelihood_and_variance bk prob sel conv L parameters = Ok (Fin ln_l, variance) /\
    ln_likelihood_and_variance bk prob' sel' conv' L parameters' = Ok (Fin ln_l', variance') /\
    ln_l <= ln_l' /\ (s' < s -> (0 < li_n L)%nat -> ln_l < ln_l').
Proof. exact C108_monotone_pf. Qed.
Print Assumptions C108_monotone.

Example C108_monotone_example : exists ln_l ln_l' variance variance',
  ln_likelihood_and_variance Numpy (ex_pb "x") (ex_sb (1/2)) (fun p => Ok p) (ex_Lb Hyper) [] = Ok (Fin ln_l, variance) /\
  ln_likelihood_and_variance Numpy (ex_pb "y") (ex_sb (1/3)) (fun p => Ok p) (ex_Lb Hyper) [] = Ok (Fin ln_l', variance') /\ ln_l < ln_l'.
Proof.
  destruct (ex_Wx Hyper) as [A B]. destruct (ex_Wy Hyper) as [A' B'].
  destruct (C108_monotone Numpy (ex_pb "x") (ex_pb "y") (ex_sb (1/2)) (ex_sb (1/3)) (fun p => Ok p) (fun p => Ok p) (ex_Lb Hyper) [] [] [] [] _ _ (1/2) (1/3) 0 0 eq_refl eq_refl eq_refl A A' B B' eq_refl eq_refl)
    as (l & l' & x & x' & E & E' & _ & S); try lra.
  - repeat constructor; lra.
  - do 4 eexists. split; [exact E|]. split; [exact E'|]. apply S; [lra|]. simpl; lia.
Qed.

(** C108. The detection efficiency grows with the population density, and is at most (at least) the largest (smallest) weight times the fraction of injections found. *)
Theorem C108_efficiency :
  forall bk prob v parameters p q N, injections_are prob v parameters p q N ->
  exists mu var, detection_efficiency bk prob v parameters = Ok (Fin mu, Fin var) /\
    (forall a b, Forall (fun w => a <= w <= b) (quotients p q) -> a * (INR (List.length q) / N) <= mu <= b * (INR (List.length q) / N)) /\
    (forall prob' p', injections_are prob' v parameters p' q N -> Forall (fun x => 0 < x) q -> Forall2 Rle p p' ->
       exists mu' var', detection_efficiency bk prob' v parameters = Ok (Fin mu', Fin var') /\ mu <= mu').
Proof. exact C108_efficiency_pf. Qed.
Print Assumptions C108_efficiency.

Definition ex_vb (mg en : bool) : resampling := {| rv_data := [("prior"%string, map Fin [1/2; 1/4]); ("x"%string, map Fin [1/3; 1/5]); ("y"%string, map Fin [1/2; 1])];
  rv_n_events := Fin 2; rv_total := Fin 10; rv_time := Fin 1; rv_redshift := None; rv_marginalize := mg; rv_enforce := en; rv_volume := None |}.
Definition ex_ib (c : string) (d : dict (list xf)) (p : dict xf) : result (list xf) := dlookup c d.
Lemma ex_injx mg en h : injections_are (ex_ib "x") (ex_vb mg en) h [1/3; 1/5] [1/2; 1/4] 10.
Proof. repeat split; try lra; [repeat constructor; lra|simpl; lra]. Qed.
Lemma ex_injy mg en h : injections_are (ex_ib "y") (ex_vb mg en) h [1/2; 1] [1/2; 1/4] 10.
Proof. repeat split; try lra; [repeat constructor; lra|simpl; lra]. Qed.
Example C108_efficiency_example : exists mu var mu' var', detection_efficiency Numpy (ex_ib "x") (ex_vb false true) [] = Ok (Fin mu, Fin var) /\
  detection_efficiency Numpy (ex_ib "y") (ex_vb false true) [] = Ok (Fin mu', Fin var') /\ mu <= mu'.
Proof.
  destruct (C108_efficiency Numpy _ _ _ _ _ _ (ex_injx false true [])) as (mu & var & E & _ & M).
  destruct (M _ _ (ex_injy false true [])) as (mu' & var' & E' & Q); [repeat constructor; lra|repeat constructor; lra|]. now exists mu, var, mu', var'.
Qed.

(** C108. The likelihood of a mixture of two populations with fraction [t], when the rate is a parameter and the selection function is that of injections: it is at least the
    weighted average of the two log likelihoods (it is concave in the fraction, hence has no spurious local maxima in it), with equality exactly when the two populations give every
    event the same evidence. *)
Theorem C108_mixture_concave :
  forall bk t prob_1 prob_2 prob inj_1 inj_2 inj conv L v parameters converted W_1 W_2 p_1 p_2 q N r, 0 < t < 1 -> li_kind L = Rate ->
  events_mixed t prob_1 prob_2 prob -> injections_mixed t inj_1 inj_2 inj -> conv parameters = Ok converted ->
  weights_are prob_1 L converted W_1 -> weights_are prob_2 L converted W_2 -> positive_weights L W_1 -> positive_weights L W_2 -> List.length W_1 = List.length W_2 ->
  injections_are inj_1 v converted p_1 q N -> injections_are inj_2 v converted p_2 q N -> 0 < Rsum (quotients p_1 q) -> 0 < Rsum (quotients p_2 q) ->
  rv_marginalize v = false -> rv_enforce v = false -> dget "rate"%string converted = Some (Fin r) -> 0 < r ->
  exists l_1 l_2 l var_1 var_2 var,
    ln_likelihood_and_variance bk prob_1 (resampling_call bk inj_1 v) conv L parameters = Ok (Fin l_1, var_1) /\
    ln_likelihood_and_variance bk prob_2 (resampling_call bk inj_2 v) conv L parameters = Ok (Fin l_2, var_2) /\
    ln_likelihood_and_variance bk prob (resampling_call bk inj v) conv L parameters = Ok (Fin l, var) /\
    t * l_1 + (1 - t) * l_2 <= l /\ (t * l_1 + (1 - t) * l_2 = l <-> map mean W_1 = map mean W_2).
Proof. exact C108_mixture_concave_pf. Qed.
Print Assumptions C108_mixture_concave.

(** The mixture of two models, computed elementwise. *)
Definition ex_mix1 (t : R) (a b : list xf) : list xf := map (fun x => fadd (fmul (Fin t) (fst x)) (fmul (Fin (1 - t)) (snd x))) (combine a b).
Definition ex_emix (t : R) (f g : dict matrix -> dict xf -> result matrix) (d : dict matrix) (h : dict xf) : result matrix :=
  a <- f d h ;; b <- g d h ;; Ok (map (fun r => ex_mix1 t (fst r) (snd r)) (combine a b)).
Definition ex_imix (t : R) (f g : dict (list xf) -> dict xf -> result (list xf)) (d : dict (list xf)) (h : dict xf) : result (list xf) :=
  a <- f d h ;; b <- g d h ;; Ok (ex_mix1 t a b).
Lemma ex_mix1_fin t a b : ex_mix1 t (map Fin a) (map Fin b) = map Fin (mix t a b).
Proof. unfold ex_mix1, mix. revert b. induction a as [|x a IH]; intros [|y b]; try reflexivity. cbn [map combine fst snd]. now rewrite IH, !fmul_fin, fadd_fin. Qed.
Lemma ex_emix_ok t f g : events_mixed t f g (ex_emix t f g).
Proof.
  intros d h P Q A B _. unfold ex_emix. rewrite A, B. cbn [bind]. f_equal. clear. revert Q. induction P as [|p P IH]; intros [|q Q]; try reflexivity. cbn [map combine fst snd]. now rewrite IH, ex_mix1_fin.
Qed.
Lemma ex_imix_ok t f g : injections_mixed t f g (ex_imix t f g).
Proof. intros d h p q A B _. unfold ex_imix. rewrite A, B. cbn [bind]. now rewrite ex_mix1_fin. Qed.
Example C108_mixture_example : exists l_1 l_2 l var_1 var_2 var, let h := [("rate"%string, Fin 7)] in
    ln_likelihood_and_variance Numpy (ex_pb "x") (resampling_call Numpy (ex_ib "x") (ex_vb false false)) (fun p => Ok p) (ex_Lb Rate) h = Ok (Fin l_1, var_1) /\
    ln_likelihood_and_variance Numpy (ex_pb "y") (resampling_call Numpy (ex_ib "y") (ex_vb false false)) (fun p => Ok p) (ex_Lb Rate) h = Ok (Fin l_2, var_2) /\
    ln_likelihood_and_variance Numpy (ex_emix (1/4) (ex_pb "x") (ex_pb "y")) (resampling_call Numpy (ex_imix (1/4) (ex_ib "x") (ex_ib "y")) (ex_vb false false)) (fun p => Ok p) (ex_Lb Rate) h = Ok (Fin l, var) /\
    1/4 * l_1 + (1 - 1/4) * l_2 < l.
Proof.
  destruct (ex_Wx Rate) as [A B]. destruct (ex_Wy Rate) as [A' B'].
  destruct (C108_mixture_concave Numpy (1/4) _ _ _ _ _ _ (fun p => Ok p) (ex_Lb Rate) (ex_vb false false) [("rate"%string, Fin 7)] [("rate"%string, Fin 7)] [[1; 2]; [3; 4]] [[2; 2]; [3; 5]] _ _ _ _ 7
    ltac:(lra) eq_refl (ex_emix_ok (1/4) (ex_pb "x") (ex_pb "y")) (ex_imix_ok (1/4) (ex_ib "x") (ex_ib "y")) eq_refl A A' B B' eq_refl (ex_injx false false _) (ex_injy false false _)) as (l1 & l2 & l & v1 & v2 & v & E1 & E2 & E & Q & S);
    try reflexivity; try lra; try (cbv [quotients map combine fst snd]; unfold Rsum; cbn [fold_right]; lra).
  exists l1, l2, l, v1, v2, v. cbv zeta. split; [exact E1|]. split; [exact E2|]. split; [exact E|]. destruct Q as [Q|Q]; [exact Q|]. apply S in Q.
  exfalso. cbn [map] in Q. injection Q as Q _. unfold mean, Rsum in Q. cbn [fold_right List.length INR] in Q. lra.
Qed.

