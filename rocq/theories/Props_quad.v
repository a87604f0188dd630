(** Property theorems (quad). Proofs are in [quad_thms]; the vocabulary is in [Spec]. *)
From Coq Require Import Reals Lra Lia Psatz String Bool.
From Coquelicot Require Import Coquelicot.
From Coq Require Import List.
From Verif Require Import Xf Py St Xf_facts Py_facts Calc Spec Utils_model Trap_facts Np Np_facts Cosmo_model Redshift_model redshift_thms Vt_model vt_thms Interp_model Interp_facts interp_thms SpecQuad Quad_facts.
Import ListNotations.
Local Open Scope R_scope.
Local Opaque linspace xlinspace.
From Verif Require Import quad_thms.

(** C93. The trapezoid rule the library integrates with, on any grid: for a function with second derivative at most M, the value differs from the integral by at most M h^2 (b - a) / 12, where h is the largest step. *)
Theorem C93_any_grid :
  forall (f : R -> R) a b h M grid, 0 <= h -> partition a b h grid -> second_derivative_at_most f a b M ->
  exists T, trapezoid (map (fun x => Fin (f x)) grid) (map Fin grid) = Fin T /\ ex_RInt f a b /\ Rabs (RInt f a b - T) <= M / 12 * h ^ 2 * (b - a).
Proof. exact C93_any_grid_pf. Qed.
Print Assumptions C93_any_grid.

Example C93_hyps : partition 0 1 (2/3) [0; 1/2; 2/3; 1] /\ second_derivative_at_most (fun x => x ^ 3) 0 1 6.
Proof.
  split; [simpl; repeat split; lra|]. exists (fun x => 3 * x ^ 2), (fun x => 6 * x). intros x Hx. split; [auto_derive; [auto|ring]|]. split; [auto_derive; [auto|ring]|]. rewrite Rabs_right; lra.
Qed.

(** C93. A redshift model whose unnormalised density psi(z)/(1+z) dVc/dz has second derivative at most M up to z_max: the density it returns is integrable and its true integral (not the trapezoid) is 1 up to
    M (z_max - 1e-6)^3 / (12 2499^2 N), with N the normalisation. *)
Theorem C93_redshift_density :
  forall available ra z_max cosmo_model r parameters c (psi dvc : R -> R) N M, 1/1000000 < z_max ->
  redshift_init available ra z_max cosmo_model = Ok r -> cosmology_of (rs_mixin r) parameters = Ok c ->
  (forall z, 0 < z <= z_max -> ra_psi ra (Fin z) parameters = Ok (Fin (psi z)) /\ co_dvc c (Fin z) = Fin (dvc z)) ->
  second_derivative_at_most (fun z => psi z / (1 + z) * (4 * PI * dvc z)) (1/1000000) z_max M ->
  normalisation r parameters = Ok (Fin N) -> 0 < N ->
  exists p : R -> R, (forall z, 1/1000000 <= z <= z_max -> probability r [("redshift"%string, [Fin z])] parameters = Ok [Fin (p z)]) /\
    ex_RInt p (1/1000000) z_max /\ Rabs (RInt p (1/1000000) z_max - 1) <= M * (z_max - 1/1000000) ^ 3 / (12 * 2499 ^ 2 * N).
Proof. exact C93_redshift_density_pf. Qed.
Print Assumptions C93_redshift_density.

(** A unit volume element and a cubic evolution: the second derivative of the density is 8 pi. *)
Example C93_redshift_hyps : second_derivative_at_most (fun z => (1 + z) ^ 3 / (1 + z) * (4 * PI * 1)) (1/1000000) (23/10) (8 * PI).
Proof.
  exists (fun z => 8 * PI * (1 + z)), (fun z => 8 * PI). intros z Hz. split; [|split].
  - auto_derive; [lra|]. field. lra.
  - auto_derive; [auto|]. ring.
  - rewrite Rabs_right; [lra|]. assert (P := PI_RGT_0). lra.
Qed.

(** C93. total_four_volume is T 4 pi / 1e9 times the integral of dVc/dz (1+z)^(lamb-1), up to T 4 pi / 1e9 M z_max^3 / (12 2499^2). *)
Theorem C93_four_volume :
  forall dvc (g : R -> R) lamb T max_redshift M, 0 < max_redshift -> 0 <= T -> (forall z, 0 <= z <= max_redshift -> dvc (Fin z) = Fin (g z)) ->
  let f := fun z => g z * Rpower (1 + z) (lamb - 1) in
  second_derivative_at_most f 0 max_redshift M ->
  exists V, total_four_volume dvc (Fin lamb) (Fin T) max_redshift = Fin V /\ ex_RInt f 0 max_redshift /\
            Rabs (T * (4 * PI / 1000000000) * RInt f 0 max_redshift - V) <= T * (4 * PI / 1000000000) * (M * max_redshift ^ 3 / (12 * 2499 ^ 2)).
Proof. exact C93_four_volume_pf. Qed.
Print Assumptions C93_four_volume.

Example C93_four_volume_hyps : second_derivative_at_most (fun z => 1 * Rpower (1 + z) (1 - 1)) 0 (23/10) 0.
Proof.
  exists (fun _ => 0), (fun _ => 0). intros z Hz. split; [|split].
  - apply (is_derive_ext_loc (fun _ => 1)); [|apply (is_derive_const 1)]. exists (mkposreal (1/2) ltac:(lra)). intros y Hy.
    unfold ball in Hy; simpl in Hy; unfold AbsRing_ball, abs, minus, plus, opp in Hy; simpl in Hy. apply Rabs_lt_between in Hy. rewrite Rminus_eq_0, Rpower_O by lra. match goal with |- ?a = ?b => change (a = b :> R) end. ring.
  - apply (is_derive_const 0).
  - rewrite Rabs_R0. lra.
Qed.

(** C93. A freshly built one-parameter interpolated model whose unnormalised density (exponential of the interpolant, cut at the first and last node) is the number d(t) on its range with second derivative at most M: at any
    points of the range it returns p(t) with true integral 1 up to M (hi - lo)^3 / (12 (10 nodes - 1)^2 N), N being the trapezoid it divides by. *)
Theorem C93_interpolated_density :
  forall bk spl c param lo hi nodes kind log reg s kwargs f x (d : R -> R) N M, (1 <= nodes)%nat -> lo < hi ->
  interp_init c [param] lo hi nodes kind log reg = Ok s ->
  dget (fkey (in_base s) nodes) kwargs = None -> extract_spline_points s kwargs = Ok (f, x) ->
  let scale := fun t => if log then flog t else t in
  (forall t, lo <= t <= hi -> fmul (fexp (spl kind (map scale x) f (scale (Fin t)))) (of_bool (fge (Fin t) (hd NaN x) && fle (Fin t) (last x NaN))) = Fin (d t)) ->
  second_derivative_at_most d lo hi M ->
  trapezoid (map (fun t => Fin (d t)) (linspace lo hi (10 * nodes))) (xlinspace lo hi (10 * nodes)) = Fin N -> 0 < N ->
  exists p : R -> R,
    (forall ts, (forall t, In t ts -> lo <= t <= hi) -> snd (p_x_identical bk spl [(param, map Fin ts)] kwargs s) = Ok (map (fun t => Fin (p t)) ts)) /\
    ex_RInt p lo hi /\ Rabs (RInt p lo hi - 1) <= M * (hi - lo) ^ 3 / (12 * (10 * INR nodes - 1) ^ 2 * N).
Proof. exact C93_interpolated_density_pf. Qed.
Print Assumptions C93_interpolated_density.

(** A kernel that returns the first value everywhere, three nodes on [0,1]: the density is the constant 1. *)
Definition first_kernel (kind : string) (nodes vals : list xf) (t : xf) : xf := hd (Fin 0) vals.
Definition first_kw : dict xf := [("a0", Fin 0); ("a1", Fin (1/2)); ("a2", Fin 1); ("fa0", Fin 0); ("fa1", Fin 1); ("fa2", Fin 0)]%string.
Example C93_interpolated_hyps :
  exists s, interp_init NoBase ["a_1"%string] 0 1 3 "cubic" false false = Ok s /\ dget (fkey (in_base s) 3) first_kw = None /\
    extract_spline_points s first_kw = Ok (map Fin [0; 1; 0], map Fin [0; 1/2; 1]) /\
    (forall t, 0 <= t <= 1 -> fmul (fexp (first_kernel "cubic" (map (fun t => t) (map Fin [0; 1/2; 1])) (map Fin [0; 1; 0]) (Fin t)))
       (of_bool (fge (Fin t) (hd NaN (map Fin [0; 1/2; 1])) && fle (Fin t) (last (map Fin [0; 1/2; 1]) NaN))) = Fin 1) /\
    second_derivative_at_most (fun _ => 1) 0 1 0 /\
    trapezoid (map (fun t => Fin 1) (linspace 0 1 (10 * 3))) (xlinspace 0 1 (10 * 3)) = Fin 1.
Proof.
  eexists. split; [reflexivity|]. split; [reflexivity|]. split; [reflexivity|]. split; [|split].
  - intros t Ht. simpl map. simpl hd. simpl last. unfold first_kernel. simpl hd. rewrite fge_fin, fle_fin, !Rleb_true by lra. cbn [andb of_bool]. rewrite fexp_fin, exp_0, fmul_fin. f_equal. ring.
  - exists (fun _ => 0), (fun _ => 0). intros x Hx. split; [apply (is_derive_const 1)|]. split; [apply (is_derive_const 0)|]. rewrite Rabs_R0. lra.
  - change (xlinspace 0 1 (10 * 3)) with (map Fin (linspace 0 1 (10 * 3))). rewrite <- (map_map (fun _ => 1) Fin), trapezoid_fin. f_equal.
    assert (L : last (linspace 0 1 (10 * 3)) 0 = 1) by (apply linspace_last; simpl; lia). assert (F : hd 0 (linspace 0 1 (10 * 3)) = 0) by (apply linspace_first; simpl; lia).
    assert (Len := linspace_length 0 1 (10 * 3)). destruct (linspace 0 1 (10 * 3)) as [|x0 x]; [simpl in Len; lia|]. simpl in F. subst x0.
    rewrite (map_ext _ (fun t => 0 * t + 1)) by (intros; ring). rewrite Rtrap_affine, <- (last_cons_default 0 x 0), L. field.
Qed.

