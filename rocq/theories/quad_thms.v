(** Proofs of the property theorems stated in [Props_quad]. *)
From Coq Require Import Reals Lra Lia Psatz String Bool.
From Coquelicot Require Import Coquelicot.
From Coq Require Import List.
From Verif Require Import Xf Py St Xf_facts Py_facts Calc Spec Utils_model Trap_facts Np Np_facts Cosmo_model Redshift_model redshift_thms Vt_model vt_thms Interp_model Interp_facts interp_thms SpecQuad Quad_facts.
Import ListNotations.
Local Open Scope R_scope.
Local Opaque linspace xlinspace.

Lemma partition_steps a b h x : partition a b h x -> exists x', x = a :: x' /\ steps_le h x /\ last x 0 = b.
Proof.
  revert a; induction x as [|x0 x IH]; intros a H; [destruct H|]. destruct x as [|x1 x].
  - destruct H as [-> ->]. exists []. repeat split.
  - destruct H as (-> & H1 & H2). destruct (IH _ H2) as (x' & E & S & L). exists (x1 :: x). split; [reflexivity|]. split; [split; auto|exact L].
Qed.
Lemma quad_real (f : R -> R) a b M h x : 0 <= h -> partition a b h x -> second_derivative_at_most f a b M ->
  ex_RInt f a b /\ Rabs (RInt f a b - Rtrap (map f x) x) <= M / 12 * h ^ 2 * (b - a).
Proof.
  intros Hh P (f1 & f2 & D). destruct (partition_steps _ _ _ _ P) as (x' & -> & S & L). rewrite <- L. apply (trap_error f f1 f2 M h x' Hh a S). intros t Ht. apply D. rewrite L in Ht. exact Ht.
Qed.
Lemma steps_partition h x : forall x0, steps_le h (x0 :: x) -> partition x0 (last (x0 :: x) 0) h (x0 :: x).
Proof.
  induction x as [|x1 x IH]; intros x0 H; [split; reflexivity|]. destruct H as [H1 H2]. split; [reflexivity|]. split; [exact H1|].
  change (last (x0 :: x1 :: x) 0) with (last (x1 :: x) 0). apply IH, H2.
Qed.
Lemma linspace_partition a b n : a <= b -> (2 <= n)%nat -> partition a b ((b - a) / INR (n - 1)) (linspace a b n).
Proof.
  intros H Hn. assert (L := linspace_last a b n Hn). assert (F := linspace_first a b n ltac:(lia)). assert (Len := linspace_length a b n).
  assert (P : 0 < INR (n - 1)) by (apply lt_0_INR; lia). assert (Q : 0 <= (b - a) / INR (n - 1)) by (apply Rmult_le_pos; [lra|left; apply Rinv_0_lt_compat; auto]).
  assert (S : steps_le ((b - a) / INR (n - 1)) (linspace a b n)). { Transparent linspace. unfold linspace. Opaque linspace. apply steps_seq; auto. }
  destruct (linspace a b n) as [|x0 x]; [simpl in Len; lia|]. simpl in F. subst x0. rewrite <- L. apply steps_partition. rewrite L. exact S.
Qed.
Lemma quad_linspace (f : R -> R) a b M n : a <= b -> (2 <= n)%nat -> second_derivative_at_most f a b M ->
  ex_RInt f a b /\ Rabs (RInt f a b - Rtrap (map f (linspace a b n)) (linspace a b n)) <= M * (b - a) ^ 3 / (12 * INR (n - 1) ^ 2).
Proof.
  intros H Hn D. assert (P : 0 < INR (n - 1)) by (apply lt_0_INR; lia). assert (Q : 0 <= (b - a) / INR (n - 1)) by (apply Rmult_le_pos; [lra|left; apply Rinv_0_lt_compat; auto]).
  destruct (quad_real f a b M _ _ Q (linspace_partition a b n H Hn) D) as [E B]. split; [exact E|].
  replace (M * (b - a) ^ 3 / (12 * INR (n - 1) ^ 2)) with (M / 12 * ((b - a) / INR (n - 1)) ^ 2 * (b - a)) by (field; lra). exact B.
Qed.
(** Dividing by the trapezoid: the integral of the normalised function. *)
Lemma quad_normalised (f p : R -> R) a b M n N : a <= b -> (2 <= n)%nat -> second_derivative_at_most f a b M -> 0 < N -> N = Rtrap (map f (linspace a b n)) (linspace a b n) ->
  (forall x, a <= x <= b -> p x = f x / N) -> ex_RInt p a b /\ Rabs (RInt p a b - 1) <= M * (b - a) ^ 3 / (12 * INR (n - 1) ^ 2 * N).
Proof.
  intros H Hn D N0 EN Ep. destruct (quad_linspace f a b M n H Hn D) as [E B]. rewrite <- EN in B. assert (P : 0 < INR (n - 1)) by (apply lt_0_INR; lia).
  assert (I : is_RInt p a b (RInt f a b / N)).
  { apply (is_RInt_ext (fun x => scal (/ N) (f x))).
    - rewrite Rmin_left, Rmax_right by auto. intros x Hx. rewrite Ep by lra. unfold scal; simpl. unfold mult; simpl. unfold Rdiv. apply Rmult_comm.
    - replace (RInt f a b / N) with (scal (/ N) (RInt f a b)) by (unfold scal; simpl; unfold mult; simpl; unfold Rdiv; apply Rmult_comm). apply (is_RInt_scal f). apply (RInt_correct (V := R_CompleteNormedModule)), E. }
  split; [exists (RInt f a b / N); exact I|]. rewrite (is_RInt_unique _ _ _ _ I).
  replace (RInt f a b / N - 1) with ((RInt f a b - N) * / N) by (field; lra). rewrite Rabs_mult, (Rabs_right (/ N)) by (left; apply Rinv_0_lt_compat; auto).
  replace (M * (b - a) ^ 3 / (12 * INR (n - 1) ^ 2 * N)) with (M * (b - a) ^ 3 / (12 * INR (n - 1) ^ 2) * / N) by (field; lra).
  apply Rmult_le_compat_r; [left; apply Rinv_0_lt_compat; auto|exact B].
Qed.

Lemma C93_any_grid_pf :
  forall (f : R -> R) a b h M grid, 0 <= h -> partition a b h grid -> second_derivative_at_most f a b M ->
  exists T, trapezoid (map (fun x => Fin (f x)) grid) (map Fin grid) = Fin T /\ ex_RInt f a b /\ Rabs (RInt f a b - T) <= M / 12 * h ^ 2 * (b - a).
Proof.
  intros f a b h M grid Hh P D. exists (Rtrap (map f grid) grid). split; [rewrite <- (map_map f Fin); apply trapezoid_fin|]. exact (quad_real f a b M h grid Hh P D).
Qed.

Lemma C93_redshift_density_pf :
  forall available ra z_max cosmo_model r parameters c (psi dvc : R -> R) N M, 1/1000000 < z_max ->
  redshift_init available ra z_max cosmo_model = Ok r -> cosmology_of (rs_mixin r) parameters = Ok c ->
  (forall z, 0 < z <= z_max -> ra_psi ra (Fin z) parameters = Ok (Fin (psi z)) /\ co_dvc c (Fin z) = Fin (dvc z)) ->
  second_derivative_at_most (fun z => psi z / (1 + z) * (4 * PI * dvc z)) (1/1000000) z_max M ->
  normalisation r parameters = Ok (Fin N) -> 0 < N ->
  exists p : R -> R, (forall z, 1/1000000 <= z <= z_max -> probability r [("redshift"%string, [Fin z])] parameters = Ok [Fin (p z)]) /\
    ex_RInt p (1/1000000) z_max /\ Rabs (RInt p (1/1000000) z_max - 1) <= M * (z_max - 1/1000000) ^ 3 / (12 * 2499 ^ 2 * N).
Proof.
  intros av ra zm name r pa c psi dvc N M Hz Hi Hc H D HN N0. destruct (init_rs _ _ _ _ _ Hi) as (I1 & I2 & I3 & _).
  set (f := fun z => psi z / (1 + z) * (4 * PI * dvc z)) in *. exists (fun z => f z / N). split; [|].
  - intros z Hz'. destruct (H z ltac:(lra)) as [P Q]. destruct (C44_value_pf av ra zm name r pa c N z (psi z) (dvc z) Hi Hc HN ltac:(lra) ltac:(lra) P Q) as [V _]. apply V. lra.
  - assert (E : N = Rtrap (map f (linspace (1/1000000) zm 2500)) (linspace (1/1000000) zm 2500)).
    { apply norm_inv in HN. destruct HN as (d & E & T). rewrite I1 in E, T.
      assert (B : forall z, In z (linspace (1/1000000) zm 2500) -> 1/1000000 <= z <= zm) by (intros z Hin; apply linspace_bounds in Hin; lra).
      rewrite (dsv_grid r pa c psi dvc) in E by (auto; intros z Hin; specialize (B z Hin); rewrite I3; destruct (H z ltac:(lra)); repeat split; auto; lra).
      injection E as <-. rewrite trapezoid_fin in T. injection T as ->. f_equal. apply map_ext_in. intros z Hin. specialize (B z Hin). rewrite I2. destruct (Rle_dec z zm); [reflexivity|lra]. }
    assert (X := quad_normalised f (fun z => f z / N) (1/1000000) zm M 2500 N ltac:(lra) big D N0 E (fun x _ => eq_refl)).
    replace (INR (2500 - 1)) with 2499 in X; [exact X|]. rewrite minus_INR by (apply Nat.leb_le; reflexivity). rewrite (INR_IZR_INZ 2500). simpl. lra.
Qed.

Lemma C93_four_volume_pf :
  forall dvc (g : R -> R) lamb T max_redshift M, 0 < max_redshift -> 0 <= T -> (forall z, 0 <= z <= max_redshift -> dvc (Fin z) = Fin (g z)) ->
  let f := fun z => g z * Rpower (1 + z) (lamb - 1) in
  second_derivative_at_most f 0 max_redshift M ->
  exists V, total_four_volume dvc (Fin lamb) (Fin T) max_redshift = Fin V /\ ex_RInt f 0 max_redshift /\
            Rabs (T * (4 * PI / 1000000000) * RInt f 0 max_redshift - V) <= T * (4 * PI / 1000000000) * (M * max_redshift ^ 3 / (12 * 2499 ^ 2)).
Proof.
  intros dvc g lamb T zm M Hz HT H f D. rewrite (tfv_val g dvc lamb T zm Hz H). eexists. split; [reflexivity|].
  destruct (quad_linspace f 0 zm M 2500 ltac:(lra) big D) as [E B]. split; [exact E|].
  rewrite (map_ext_in (fun z => g z / (1 + z) * Rpower (1 + z) lamb) f).
  2:{ intros z Hin. apply linspace_bounds in Hin; [|lra]. unfold f. replace lamb with (1 + (lamb - 1)) at 1 by ring. rewrite Rpower_1p by lra. field. lra. }
  set (W := Rtrap _ _) in *. replace (T * (4 * PI / 1000000000) * RInt f 0 zm - W * (4 * PI / 1000000000 * T)) with (T * (4 * PI / 1000000000) * (RInt f 0 zm - W)) by ring.
  assert (P := PI_RGT_0). assert (Q : 0 <= T * (4 * PI / 1000000000)) by (apply Rmult_le_pos; lra). rewrite Rabs_mult, Rabs_right by lra. apply Rmult_le_compat_l; [exact Q|].
  rewrite Rminus_0_r in B. replace (INR (2500 - 1)) with 2499 in B; [exact B|]. rewrite minus_INR by (apply Nat.leb_le; reflexivity). rewrite (INR_IZR_INZ 2500). simpl. lra.
Qed.

Lemma C93_interpolated_density_pf :
  forall bk spl c param lo hi nodes kind log reg s kwargs f x (d : R -> R) N M, (1 <= nodes)%nat -> lo < hi ->
  interp_init c [param] lo hi nodes kind log reg = Ok s ->
  dget (fkey (in_base s) nodes) kwargs = None -> extract_spline_points s kwargs = Ok (f, x) ->
  let scale := fun t => if log then flog t else t in
  (forall t, lo <= t <= hi -> fmul (fexp (spl kind (map scale x) f (scale (Fin t)))) (of_bool (fge (Fin t) (hd NaN x) && fle (Fin t) (last x NaN))) = Fin (d t)) ->
  second_derivative_at_most d lo hi M ->
  trapezoid (map (fun t => Fin (d t)) (linspace lo hi (10 * nodes))) (xlinspace lo hi (10 * nodes)) = Fin N -> 0 < N ->
  exists p : R -> R,
    (forall ts, (forall t, In t ts -> lo <= t <= hi) -> snd (p_x_identical bk spl [(param, map Fin ts)] kwargs s) = Ok (map (fun t => Fin (p t)) ts)) /\
    ex_RInt p lo hi /\ Rabs (RInt p lo hi - 1) <= M * (hi - lo) ^ 3 / (12 * (10 * INR nodes - 1) ^ 2 * N).
Proof.
  intros bk spl c param lo hi nodes kind log reg s kw f x d N M Hn Hlh Hs Hk He scale Hd D HN N0.
  destruct (init_fields _ _ _ _ _ _ _ _ _ _ Hs) as (_ & I1 & _ & I2 & I3 & I4 & I5 & I6 & I7 & I8 & I9 & I10).
  assert (Hx : x <> []).
  { apply extract_lengths in He. destruct He as [_ [He _]]. rewrite I9, map_length, seq_length in He. destruct x; [simpl in He; lia|discriminate]. }
  assert (C : forall ts, (forall t, In t ts -> lo <= t <= hi) -> column spl s x f (hd NaN x, last x NaN) (map Fin ts) = map (fun t => Fin (d t)) ts).
  { intros ts Hts. rewrite <- (map_map d Fin). rewrite (map_map d Fin). unfold column, node_scale, in_range. rewrite I2, I5. cbn [fst snd].
    transitivity (map (fun t => fmul (fexp (spl kind (map scale x) f (scale t))) (of_bool (fge t (hd NaN x) && fle t (last x NaN)))) (map Fin ts)).
    - unfold scale. destruct log; [|rewrite map_id]; reflexivity.
    - rewrite map_map. apply map_ext_in. intros t Ht. apply Hd. auto. }
  assert (B : forall t, In t (linspace lo hi (10 * nodes)) -> lo <= t <= hi) by (intros t Ht; apply linspace_bounds in Ht; lra).
  exists (fun t => d t / N). split.
  - intros ts Hts.
    rewrite (call_fresh bk spl s [(param, map Fin ts)] kw f x (fun _ => map Fin ts) (hd NaN x, last x NaN) (List.length ts) param []); auto using ends_hd_last; [|now rewrite I7|].
    2:{ intros q Hq. rewrite I4 in Hq. destruct Hq as [<-|[]]. cbn [dget]. rewrite String.eqb_refl, map_length. auto. }
    cbn [snd]. f_equal. unfold outcome. rewrite I3, I4. change (xlinspace lo hi (10 * nodes)) with (map Fin (linspace lo hi (10 * nodes))) in *.
    cbn [map List.length prod_cols fold_left]. rewrite zipWith_ones by (unfold column; now rewrite !map_length). rewrite (C _ B), HN, (C _ Hts), map_map. unfold of_nat. simpl INR. rewrite fpow_1_any.
    apply map_ext. intros t. rewrite fdiv_fin by lra. reflexivity.
  - change (xlinspace lo hi (10 * nodes)) with (map Fin (linspace lo hi (10 * nodes))) in *. rewrite <- (map_map d Fin), trapezoid_fin in HN. injection HN as HN.
    assert (X := quad_normalised d (fun t => d t / N) lo hi M (10 * nodes) N ltac:(lra) ltac:(lia) D N0 (eq_sym HN) (fun _ _ => eq_refl)).
    replace (INR (10 * nodes - 1)) with (10 * INR nodes - 1) in X; [exact X|]. rewrite minus_INR, mult_INR by lia. replace (INR 10) with 10 by (simpl; ring). simpl. ring.
Qed.

