(** Proofs of the property theorems stated in [Props_interp]. *)
From Coq Require Import Reals Lra Lia Psatz String Bool.
From Coquelicot Require Import Coquelicot.
From Coq Require Import List.
From Verif Require Import Xf Py St Xf_facts Py_facts Calc Spec Utils_model Powerlaw_facts Truncnorm_facts Trap_facts
  Np Np_facts Mass_model Mass_facts Smoothed_model Smoothed_facts SpecSmooth Interp_model Interp_facts.
Import ListNotations.
Local Open Scope R_scope.

Lemma init_fields c param params lo hi nodes kind log reg s :
  interp_init c (param :: params) lo hi nodes kind log reg = Ok s ->
  in_class s = c /\ in_norm s = None /\ in_data s = [] /\ in_kind s = kind /\ in_xs s = xlinspace lo hi (10 * nodes) /\
  in_params s = param :: params /\ in_log s = log /\ in_base s = strip_1 param /\ in_nodes s = nodes /\
  in_fkeys s = map (fkey (strip_1 param)) (seq 0 nodes) /\ in_xkeys s = map (xkey (strip_1 param)) (seq 0 nodes) /\ in_regularize s = reg.
Proof. intros H. unfold interp_init in H. injection H as <-. cbn. repeat split. Qed.
Lemma fpow_1 r : 0 <= r -> fpow (Fin r) (Fin 1) = Fin r.
Proof.
  intros [H| <-]; [rewrite fpow_fin, Rpower_1 by auto; reflexivity|]. apply fpow_zero_pos. lra.
Qed.
Lemma fpow_1_any r : fpow (Fin r) (Fin 1) = Fin r.
Proof.
  destruct (Rle_dec 0 r) as [H|H]; [now apply fpow_1|]. unfold fpow. rewrite !feq_fin, Reqb_false by lra.
  destruct (Reqb_spec r 1) as [->|]; auto. rewrite Rltb_false, Reqb_false by lra.
  assert (I : Int_part 1 = 1%Z). { assert (B := base_Int_part 1). destruct B as [B1 B2]. apply le_IZR in B1.
    assert (0 < Int_part 1)%Z by (apply lt_IZR; lra). lia. }
  unfold is_odd_int, is_int. rewrite I, Reqb_true by reflexivity. simpl. rewrite Rpower_1 by lra. f_equal. lra.
Qed.
Lemma fpow_nat N k : 0 < N -> fpow (Fin N) (of_nat k) = Fin (N ^ k).
Proof. intros H. unfold of_nat. rewrite fpow_fin by auto. now rewrite Rpower_pow. Qed.
Lemma ends_cons x0 x : ends (x0 :: x) = Ok (x0, last x x0).
Proof. reflexivity. Qed.
Lemma last_cons_default {A} (x0 : A) x d : last (x0 :: x) d = last x x0.
Proof.
  revert x0 d; induction x as [|x1 x IH]; intros x0 d; [reflexivity|].
  change (last (x0 :: x1 :: x) d) with (last (x1 :: x) d). now rewrite !IH.
Qed.
Lemma ends_hd_last x : x <> [] -> ends x = Ok (hd NaN x, last x NaN).
Proof. destruct x as [|x0 x]; [congruence|]. intros _. rewrite last_cons_default. reflexivity. Qed.
Lemma extract_lengths s kw f x : extract_spline_points s kw = Ok (f, x) ->
  List.length f = List.length (in_fkeys s) /\ List.length x = List.length (in_xkeys s) /\
  mapM (fun k => dlookup k kw) (in_xkeys s) = Ok x.
Proof.
  unfold extract_spline_points. destruct (mapM _ (in_fkeys s)) as [f0|e] eqn:Ef; cbn [bind]; [|discriminate].
  assert (L := mapM_length _ _ _ Ef).
  destruct (in_regularize s).
  - destruct (dlookup _ kw) as [r|e]; cbn [bind]; [|discriminate].
    destruct (mapM _ (in_xkeys s)) as [x0|e] eqn:Ex; cbn [bind]; [|discriminate].
    intros H; injection H as <- <-. rewrite map_length. split; [auto|]. split; [|reflexivity]. now apply mapM_length in Ex.
  - cbn [bind]. destruct (mapM _ (in_xkeys s)) as [x0|e] eqn:Ex; cbn [bind]; [|discriminate].
    intros H; injection H as <- <-. split; [auto|]. split; [|reflexivity]. now apply mapM_length in Ex.
Qed.
Lemma zipWith_ones l (c : list xf) : List.length l = List.length c -> zipWith fmul (map (fun _ => Fin 1) c) l = l.
Proof.
  revert c; induction l as [|a l IH]; intros [|b c] E; try discriminate; [reflexivity|].
  simpl map. rewrite zipWith_cons, fmul_1_l, IH; auto.
Qed.

Lemma C34_one_parameter_normalised_pf :
  forall bk spl c param lo hi nodes kind log reg s kwargs f x N, (1 <= nodes)%nat ->
  interp_init c [param] lo hi nodes kind log reg = Ok s ->
  dget (fkey (in_base s) nodes) kwargs = None -> extract_spline_points s kwargs = Ok (f, x) ->
  let scale := fun t => if log then flog t else t in
  let density := fun t => fmul (fexp (spl kind (map scale x) f (scale t))) (of_bool (fge t (hd NaN x) && fle t (last x NaN))) in
  let grid := xlinspace lo hi (10 * nodes) in
  trapezoid (map density grid) grid = Fin N -> N <> 0 ->
  exists p, snd (p_x_identical bk spl [(param, grid)] kwargs s) = Ok p /\ trapezoid p grid = Fin 1.
Proof.
  intros bk spl c param lo hi nodes kind log reg s kw f x N Hn Hs Hk He scale density grid HN N0.
  destruct (init_fields _ _ _ _ _ _ _ _ _ _ Hs) as (_ & I1 & _ & I2 & I3 & I4 & I5 & I6 & I7 & I8 & I9 & I10).
  assert (Hx : x <> []).
  { apply extract_lengths in He. destruct He as [_ [He _]]. rewrite I9, map_length, seq_length in He. destruct x; [simpl in He; lia|discriminate]. }
  assert (C : column spl s x f (hd NaN x, last x NaN) grid = map density grid).
  { unfold column, density, scale, node_scale, in_range. rewrite I2, I5. cbn [fst snd]. destruct log; [|rewrite map_id]; reflexivity. }
  rewrite (call_fresh bk spl s [(param, grid)] kw f x (fun _ => grid) (hd NaN x, last x NaN) (List.length grid) param []);
    auto using ends_hd_last; [|now rewrite I7|].
  2:{ intros q Hq. rewrite I4 in Hq. destruct Hq as [<-|[]]. cbn [dget]. now rewrite String.eqb_refl. }
  eexists; split; [reflexivity|]. unfold outcome. rewrite I3, I4. fold grid. rewrite C, HN. cbn [map List.length prod_cols fold_left].
  unfold of_nat. simpl INR. rewrite fpow_1_any. rewrite zipWith_ones by now rewrite map_length.
  unfold grid, xlinspace. apply trapezoid_normalise; auto; rewrite ?map_length, ?linspace_length; auto. lia.
Qed.

Definition kernel_finite (spl : string -> list xf -> list xf -> xf -> xf) :=
  forall kind nodes f t, List.length f = List.length nodes ->
    exists r, spl kind (map Fin nodes) (map Fin f) (Fin t) = Fin r.

Lemma C34_norm_positive_pf :
  forall bk spl c param lo hi nodes kind reg s kwargs (f x : list R), (1 <= nodes)%nat -> lo < hi ->
  (forall kind nodes f t, List.length f = List.length nodes -> exists r, spl kind (map Fin nodes) (map Fin f) (Fin t) = Fin r) ->
  interp_init c [param] lo hi nodes kind false reg = Ok s ->
  dget (fkey (in_base s) nodes) kwargs = None -> extract_spline_points s kwargs = Ok (map Fin f, map Fin x) ->
  (exists t, In t (linspace lo hi (10 * nodes)) /\ hd 0 x <= t <= last x 0) ->
  let grid := xlinspace lo hi (10 * nodes) in
  exists p, snd (p_x_identical bk spl [(param, grid)] kwargs s) = Ok p /\ trapezoid p grid = Fin 1 /\
            Forall (fun v => exists r, v = Fin r /\ 0 <= r) p.
Proof.
  intros bk spl c param lo hi nodes kind reg s kw f x Hn Hlh Hk Hs Hkey He [t0 [Ht0 Hb]] grid.
  destruct (init_fields _ _ _ _ _ _ _ _ _ _ Hs) as (_ & I1 & _ & I2 & I3 & I4 & I5 & I6 & I7 & I8 & I9 & I10).
  assert (L := extract_lengths _ _ _ _ He). destruct L as [L1 [L2 _]]. rewrite I8, I9, !map_length, seq_length in *.
  assert (Hx : x <> []) by (destruct x; [simpl in L2; lia|discriminate]).
  assert (EX : exists g, forall t, spl kind (map Fin x) (map Fin f) (Fin t) = Fin (g t)).
  { exists (fun t => toR (spl kind (map Fin x) (map Fin f) (Fin t))). intros t. destruct (Hk kind x f t) as [r ->]; [congruence|]. reflexivity. }
  destruct EX as [g Hg].
  assert (HL : hd NaN (map Fin x) = Fin (hd 0 x) /\ last (map Fin x) NaN = Fin (last x 0)).
  { destruct x as [|x0 x]; [congruence|]. split; [reflexivity|]. change (map Fin (x0 :: x)) with (Fin x0 :: map Fin x). rewrite !last_cons_default.
    clear. revert x0; induction x as [|x1 x IH]; intros; [reflexivity|]. destruct x; [reflexivity|]. apply (IH x0). }
  destruct HL as [H1 H2].
  set (d := fun t => exp (g t) * (if Rleb (hd 0 x) t && Rleb t (last x 0) then 1 else 0)).
  assert (D : forall t, fmul (fexp (spl kind (map (fun t => t) (map Fin x)) (map Fin f) (Fin t)))
       (of_bool (fge (Fin t) (hd NaN (map Fin x)) && fle (Fin t) (last (map Fin x) NaN))) = Fin (d t)).
  { intros t. rewrite map_id, Hg, H1, H2, fge_fin, fle_fin. unfold d. destruct (_ && _); cbn [of_bool]; autorewrite with xf; reflexivity. }
  assert (DN : forall t, 0 <= d t).
  { intros t. unfold d. assert (E := exp_pos (g t)). destruct (_ && _); lra. }
  assert (P : 0 < Rtrap (map d (linspace lo hi (10 * nodes))) (linspace lo hi (10 * nodes))).
  { apply Rtrap_pos_one; [now rewrite map_length|rewrite linspace_length; lia|apply linspace_incr; [auto|lia]| |].
    - apply Forall_map, Forall_forall. intros; apply DN.
    - apply Exists_exists. exists (d t0). split; [now apply in_map|]. unfold d. rewrite !Rleb_true by lra.
      assert (E := exp_pos (g t0)). simpl. lra. }
  assert (T : trapezoid (map (fun t => fmul (fexp (spl kind (map (fun t => t) (map Fin x)) (map Fin f) t))
       (of_bool (fge t (hd NaN (map Fin x)) && fle t (last (map Fin x) NaN)))) grid) grid =
       Fin (Rtrap (map d (linspace lo hi (10 * nodes))) (linspace lo hi (10 * nodes)))).
  { unfold grid, xlinspace. rewrite map_map. rewrite (map_ext _ _ D). rewrite <- (map_map d Fin). apply trapezoid_fin. }
  destruct (C34_one_parameter_normalised_pf bk spl c param lo hi nodes kind false reg s kw _ _ _ Hn Hs Hkey He T) as [p [Hp HT]]; [lra|].
  exists p. split; [exact Hp|]. split; [exact HT|]. fold grid in Hp.
  rewrite (call_fresh bk spl s [(param, grid)] kw (map Fin f) (map Fin x) (fun _ => grid) (Fin (hd 0 x), Fin (last x 0)) (List.length grid) param []) in Hp;
    auto; [|now rewrite I7|rewrite ends_hd_last, H1, H2; [reflexivity|destruct x; [congruence|discriminate]]|].
  2:{ intros q Hq. rewrite I4 in Hq. destruct Hq as [<-|[]]. cbn [dget]. now rewrite String.eqb_refl. }
  cbn [snd] in Hp. injection Hp as <-. unfold outcome. rewrite I3, I4. fold grid. cbn [map List.length prod_cols fold_left].
  rewrite zipWith_ones by (unfold column; now rewrite !map_length).
  unfold of_nat. simpl INR.
  assert (C : column spl s (map Fin x) (map Fin f) (Fin (hd 0 x), Fin (last x 0)) grid = map Fin (map d (linspace lo hi (10 * nodes)))).
  { unfold column, grid, xlinspace. rewrite !map_map. apply map_ext. intros t. rewrite I2, I5. unfold node_scale. rewrite I5.
    rewrite <- (D t), H1, H2, map_id. reflexivity. }
  rewrite C. unfold grid at 1, xlinspace. rewrite trapezoid_fin, fpow_1_any. rewrite !map_map. apply Forall_map, Forall_forall.
  intros t Ht. rewrite fdiv_fin by lra. eexists; split; [reflexivity|].
  apply Rmult_le_pos; [apply DN|left; now apply Rinv_0_lt_compat].
Qed.

Definition Rprod (l : list R) : R := fold_right Rmult 1 l.
Lemma prod_cols_nth (C : string -> list xf) (a : string -> R) i n qs : (i < n)%nat -> forall p0 b,
  (forall q, In q qs -> List.length (C q) = n /\ nth i (C q) NaN = Fin (a q)) -> List.length p0 = n -> nth i p0 NaN = Fin b ->
  List.length (prod_cols (map C qs) p0) = n /\ nth i (prod_cols (map C qs) p0) NaN = Fin (b * Rprod (map a qs)).
Proof.
  intros Hi. unfold prod_cols. induction qs as [|q qs IH]; intros p0 b H L Hb; cbn [map fold_left Rprod fold_right].
  - split; auto. rewrite Rmult_1_r. auto.
  - destruct (H q) as [H1 H2]; [now left|].
    destruct (IH (zipWith fmul p0 (C q)) (b * a q)) as [J1 J2]; auto.
    + intros; apply H; now right.
    + rewrite zipWith_length. lia.
    + rewrite (zipWith_nth fmul p0 (C q) i NaN NaN) by lia. rewrite Hb, H2. reflexivity.
    + split; auto. rewrite J2. f_equal. unfold Rprod. ring.
Qed.
Lemma Rprod_div a N (qs : list string) : N <> 0 ->
  Rprod (map a qs) / N ^ List.length qs = Rprod (map (fun q => a q / N) qs).
Proof.
  intros H. induction qs as [|q qs IH]; simpl; [field|]. unfold Rprod in *. rewrite <- IH. field. split; auto. now apply pow_nonzero.
Qed.
Lemma fprod_fin {A} (g : A -> xf) (a : A -> R) (qs : list A) : (forall q, In q qs -> g q = Fin (a q)) ->
  fold_right fmul (Fin 1) (map g qs) = Fin (Rprod (map a qs)).
Proof.
  induction qs as [|q qs IH]; intros H; simpl; auto. rewrite H by now left. unfold Rprod in *. rewrite IH by (intros; apply H; now right). reflexivity.
Qed.

Lemma C34_product_pf :
  forall bk spl c p0 ps lo hi nodes kind log reg sk s1 kwargs f x N ds cols n, (1 <= nodes)%nat ->
  interp_init c (p0 :: ps) lo hi nodes kind log reg = Ok sk -> interp_init c [p0] lo hi nodes kind log reg = Ok s1 ->
  dget (fkey (in_base sk) nodes) kwargs = None -> extract_spline_points sk kwargs = Ok (f, x) ->
  (forall q, In q (p0 :: ps) -> dget q ds = Some (cols q) /\ List.length (cols q) = n) ->
  let scale := fun t => if log then flog t else t in
  let density := fun t => fmul (fexp (spl kind (map scale x) f (scale t))) (of_bool (fge t (hd NaN x) && fle t (last x NaN))) in
  let grid := xlinspace lo hi (10 * nodes) in
  (forall q t, In q (p0 :: ps) -> In t (cols q) -> exists r, spl kind (map scale x) f (scale t) = Fin r) ->
  trapezoid (map density grid) grid = Fin N -> 0 < N ->
  exists l one, snd (p_x_identical bk spl ds kwargs sk) = Ok l /\ List.length l = n /\
    (forall q, In q (p0 :: ps) -> snd (p_x_identical bk spl [(p0, cols q)] kwargs s1) = Ok (one q)) /\
    forall i, (i < n)%nat -> nth i l NaN = fold_right fmul (Fin 1) (map (fun q => nth i (one q) NaN) (p0 :: ps)).
Proof.
  intros bk spl c p0 ps lo hi nodes kind log reg sk s1 kw f x N ds cols n Hn Hsk Hs1 Hk He Hc scale density grid Hfin HN Npos.
  destruct (init_fields _ _ _ _ _ _ _ _ _ _ Hsk) as (_ & I1 & _ & I2 & I3 & I4 & I5 & I6 & I7 & I8 & I9 & I10).
  destruct (init_fields _ _ _ _ _ _ _ _ _ _ Hs1) as (_ & J1 & _ & J2 & J3 & J4 & J5 & J6 & J7 & J8 & J9 & J10).
  assert (He1 : extract_spline_points s1 kw = Ok (f, x)).
  { rewrite <- He. unfold extract_spline_points. now rewrite I6, I8, I9, I10, J6, J8, J9, J10. }
  assert (Hx : x <> []).
  { apply extract_lengths in He. destruct He as [_ [He _]]. rewrite I9, map_length, seq_length in He. destruct x; [simpl in He; lia|discriminate]. }
  set (lohi := (hd NaN x, last x NaN)).
  assert (Ck : forall l, column spl sk x f lohi l = map density l).
  { intros l. unfold column, density, scale, node_scale, in_range, lohi. rewrite I2, I5. cbn [fst snd]. destruct log; [|rewrite map_id]; reflexivity. }
  assert (C1 : forall l, column spl s1 x f lohi l = map density l).
  { intros l. unfold column, density, scale, node_scale, in_range, lohi. rewrite J2, J5. cbn [fst snd]. destruct log; [|rewrite map_id]; reflexivity. }
  assert (E1 : forall q, In q (p0 :: ps) -> snd (p_x_identical bk spl [(p0, cols q)] kw s1) = Ok (map (fun v => fdiv v (Fin N)) (map density (cols q)))).
  { intros q Hq.
    rewrite (call_fresh bk spl s1 [(p0, cols q)] kw f x (fun _ => cols q) lohi (List.length (cols q)) p0 []);
      auto; [|now rewrite J7, J6, <- I6|now apply ends_hd_last|].
    2:{ intros q' Hq'. rewrite J4 in Hq'. destruct Hq' as [<-|[]]. cbn [dget]. now rewrite String.eqb_refl. }
    cbn [snd]. unfold outcome. rewrite J3, J4. fold grid. rewrite C1, HN. cbn [map List.length prod_cols fold_left].
    rewrite C1, zipWith_ones by now rewrite map_length. unfold of_nat. simpl INR. now rewrite fpow_1_any. }
  set (a := fun q i => toR (nth i (map density (cols q)) NaN)).
  assert (A : forall q i, In q (p0 :: ps) -> (i < n)%nat -> nth i (map density (cols q)) NaN = Fin (a q i)).
  { intros q i Hq Hi. unfold a. destruct (Hc q Hq) as [_ L].
    rewrite (nth_indep _ NaN (density NaN)) by (rewrite map_length; lia). rewrite map_nth.
    assert (IN : In (nth i (cols q) NaN) (cols q)) by (apply nth_In; lia).
    destruct (Hfin q _ Hq IN) as [r Hr]. unfold density. rewrite Hr. destruct (_ && _); cbn [of_bool]; autorewrite with xf; reflexivity. }
  exists (map (fun v => fdiv v (fpow (Fin N) (of_nat (List.length (p0 :: ps)))))
            (prod_cols (map (fun q => map density (cols q)) (p0 :: ps)) (map (fun _ => Fin 1) (cols p0)))),
         (fun q => map (fun v => fdiv v (Fin N)) (map density (cols q))).
  assert (L0 : List.length (map (fun _ => Fin 1) (cols p0)) = n) by (rewrite map_length; apply Hc; now left).
  assert (Ln : forall q, In q (p0 :: ps) -> List.length (map density (cols q)) = n) by (intros; rewrite map_length; now apply Hc).
  split; [|split; [|split]].
  - rewrite (call_fresh bk spl sk ds kw f x cols lohi n p0 ps); auto; [|now rewrite I7|now apply ends_hd_last|].
    2:{ intros q Hq. rewrite I4 in Hq. now apply Hc. }
    cbn [snd]. unfold outcome. rewrite I3, I4. fold grid. rewrite Ck, HN. do 3 f_equal. apply map_ext. intros; apply Ck.
  - rewrite map_length. clear - L0 Ln. revert L0. generalize (map (fun _ : xf => Fin 1) (cols p0)). generalize dependent (p0 :: ps).
    intros qs. unfold prod_cols. induction qs as [|q qs IH]; intros Ln l L; simpl; auto. apply IH; [intros; apply Ln; now right|].
    rewrite zipWith_length, Ln by now left. lia.
  - exact E1.
  - intros i Hi.
    destruct (prod_cols_nth (fun q => map density (cols q)) (fun q => a q i) i n (p0 :: ps) Hi (map (fun _ => Fin 1) (cols p0)) 1) as [P1 P2]; auto.
    { rewrite (nth_indep _ NaN (Fin 1)) by (rewrite L0; lia). rewrite (map_nth (fun _ => Fin 1) (cols p0) NaN i). reflexivity. }
    rewrite (nth_indep _ NaN (fdiv NaN (fpow (Fin N) (of_nat (List.length (p0 :: ps)))))) by (rewrite map_length; lia).
    rewrite (map_nth (fun v => fdiv v (fpow (Fin N) (of_nat (List.length (p0 :: ps)))))), P2.
    rewrite fpow_nat by auto. rewrite fdiv_fin by (apply pow_nonzero; lra). rewrite Rmult_1_l, Rprod_div by lra.
    symmetry. apply fprod_fin. intros q Hq.
    rewrite (nth_indep _ NaN (fdiv NaN (Fin N))) by (rewrite map_length, Ln by auto; lia).
    rewrite (map_nth (fun v => fdiv v (Fin N))), A by auto. apply fdiv_fin. lra.
Qed.

Lemma extract_built s x data kw : extract_spline_points (built s x data) kw = extract_spline_points s kw.
Proof. reflexivity. Qed.
Lemma extract_x_agree s kw kw' f x f' x' : (forall k, In k (in_xkeys s) -> dget k kw = dget k kw') ->
  extract_spline_points s kw = Ok (f, x) -> extract_spline_points s kw' = Ok (f', x') -> x = x'.
Proof.
  intros H E E'. apply extract_lengths in E. apply extract_lengths in E'. destruct E as [_ [_ E]], E' as [_ [_ E']].
  rewrite (mapM_lookup_ext kw kw') in E by auto. congruence.
Qed.
Section History.
  Context (bk : backend) (spl : string -> list xf -> list xf -> xf -> xf) (s : interp) (ds : dict (list xf)) (kw : dict xf)
          (cols : string -> list xf).
  Hypothesis Fresh : in_norm s = None.
  Hypothesis P0 : in_params s <> [].
  Hypothesis Dat : forall q, In q (in_params s) -> dget q ds = Some (cols q).
  Definition agrees (c : dict (list xf) * dict xf) : Prop :=
    (forall q, In q (in_params s) -> dget q (fst c) = dget q ds) /\
    (forall k, In k (in_xkeys s) -> dget k (snd c) = dget k kw) /\
    dget (fkey (in_base s) (in_nodes s)) (snd c) = None.
  (** Reachable states: untouched, or with the interpolants built for the common nodes and data. *)
  Definition reach (st : interp) : Prop :=
    st = s \/ exists x, mapM (fun k => dlookup k kw) (in_xkeys s) = Ok x /\ st = built s x (data_of s x cols).
  Lemma built_call_state x ds' kw' : dget (fkey (in_base s) (in_nodes s)) kw' = None ->
    fst (p_x_identical bk spl ds' kw' (built s x (data_of s x cols))) = built s x (data_of s x cols).
  Proof.
    intros H. rewrite call_eq by auto. destruct (extract_spline_points _ kw') as [fx|e]; [|reflexivity].
    destruct (match in_params _ with [] => Err IndexError | p :: _ => dlookup p ds' end) as [c|e]; [|reflexivity].
    assert (M := multiply_built_state bk spl (built s x (data_of s x cols)) (in_params (built s x (data_of s x cols))) ds' (snd fx) (fst fx)
                   (map (fun _ => Fin 1) c)).
    destruct (multiply_params _ _ _ _ _ _ _ _) as [s' [px|e]]; apply M; discriminate.
  Qed.
  Lemma reach_call st c : agrees c -> reach st ->
    reach (fst (p_x_identical bk spl (fst c) (snd c) st)) /\
    snd (p_x_identical bk spl (fst c) (snd c) st) = snd (p_x_identical bk spl (fst c) (snd c) s).
  Proof.
    destruct c as [ds' kw']. cbn [fst snd]. intros [A1 [A2 A3]] R0. cbn [fst snd] in *.
    assert (D : forall q, In q (in_params s) -> dget q ds' = Some (cols q)) by (intros; rewrite A1; auto).
    destruct R0 as [->|[x [Hx ->]]].
    - split; [|reflexivity]. destruct (extract_spline_points s kw') as [[f x]|e] eqn:E.
      + rewrite (call_fresh_built bk spl s ds' kw' f x cols) by auto. rewrite built_call_state by auto. right. exists x. split; auto.
        apply extract_lengths in E. destruct E as [_ [_ E]]. rewrite <- E. apply mapM_lookup_ext. intros; symmetry; auto.
      + left. rewrite call_eq by auto. now rewrite E.
    - split; [rewrite built_call_state by auto; right; eauto|].
      destruct (extract_spline_points s kw') as [[f x']|e] eqn:E.
      + assert (x' = x). { apply extract_lengths in E. destruct E as [_ [_ E]]. rewrite (mapM_lookup_ext kw' kw) in E by auto. congruence. }
        subst x'. now rewrite <- (call_fresh_built bk spl s ds' kw' f x cols).
      + rewrite !call_eq by auto. rewrite extract_built, E. reflexivity.
  Qed.
  Lemma reach_run h st : (forall c, In c h -> agrees c) -> reach st -> reach (run (p_x_identical bk spl) h st).
  Proof.
    revert st; induction h as [|c h IH]; intros st H R0; [exact R0|]. cbn [run]. apply IH; [intros; apply H; now right|].
    apply reach_call; auto. apply H; now left.
  Qed.
End History.

Lemma C35_same_nodes_partial_pf :
  forall bk spl s history ds kwargs,
  in_norm s = None -> in_params s <> [] ->
  (forall q, In q (in_params s) -> exists c, dget q ds = Some c) ->
  dget (fkey (in_base s) (in_nodes s)) kwargs = None ->
  (forall c, In c history ->
     (forall q, In q (in_params s) -> dget q (fst c) = dget q ds) /\
     (forall k, In k (in_xkeys s) -> dget k (snd c) = dget k kwargs) /\
     dget (fkey (in_base s) (in_nodes s)) (snd c) = None) ->
  let call := p_x_identical bk spl in
  snd (call ds kwargs (run call history s)) = snd (call ds kwargs s).
Proof.
  intros bk spl s h ds kw Hn Hp Hd Hk Hh call.
  assert (D : forall q, In q (in_params s) -> dget q ds = Some (dget_default q [] ds)).
  { intros q Hq. destruct (Hd q Hq) as [c E]. unfold dget_default. now rewrite E. }
  apply (reach_call bk spl s ds kw (fun q => dget_default q [] ds) Hn Hp D (run call h s) (ds, kw)).
  - repeat split; auto.
  - apply (reach_run bk spl s ds kw); auto; now left.
Qed.

Definition wkw (x0 x1 x2 f0 f1 f2 : R) : dict xf :=
  [("a0", Fin x0); ("a1", Fin x1); ("a2", Fin x2); ("fa0", Fin f0); ("fa1", Fin f1); ("fa2", Fin f2)]%string.
Definition wds : dict (list xf) := [("a_1", [Fin 0; Fin (1/2)]); ("a_2", [Fin 0; Fin 0])]%string.
Definition wcols (q : string) : list xf := dget_default q [] wds.
Section Witness.
  Context (bk : backend) (spl : string -> list xf -> list xf -> xf -> xf).
  Hypothesis Exact : forall kind nodes vals i, (i < List.length nodes)%nat -> List.length vals = List.length nodes -> NoDup nodes ->
      spl kind nodes vals (nth i nodes NaN) = nth i vals NaN.
  Hypothesis Finite : forall kind nodes f t, List.length f = List.length nodes ->
      exists r, spl kind (map Fin nodes) (map Fin f) (Fin t) = Fin r.
  Variable s : interp.
  Hypothesis Hs : spin_magnitude_init 0 1 3 "cubic" false = Ok s.

  Lemma wit_norm x1 x2 y2 : exists N, 0 < N /\ (0 <= y2 ->
    trapezoid (column spl s (map Fin [0; x1; x2]) (map Fin [0; 1; 0]) (Fin 0, Fin y2) (in_xs s)) (in_xs s) = Fin N).
  Proof.
    injection Hs as <-. cbn [in_xs]. unfold column. cbn [in_kind in_log node_scale].
    assert (EX : exists g, forall t, spl "cubic"%string (map Fin [0; x1; x2]) (map Fin [0; 1; 0]) (Fin t) = Fin (g t)).
    { exists (fun t => toR (spl "cubic"%string (map Fin [0; x1; x2]) (map Fin [0; 1; 0]) (Fin t))). intros t.
      destruct (Finite "cubic"%string [0; x1; x2] [0; 1; 0] t) as [r ->]; reflexivity. }
    destruct EX as [g Hg].
    set (d := fun t => exp (g t) * (if Rleb 0 t && Rleb t y2 then 1 else 0)).
    destruct (Rle_dec 0 y2) as [Hy|Hy]; [|exists 1; split; [lra|intros; lra]].
    exists (Rtrap (map d (linspace 0 1 (10 * 3))) (linspace 0 1 (10 * 3))). split.
    - apply Rtrap_pos_one; [now rewrite map_length|rewrite linspace_length; lia|apply linspace_incr; [lra|lia]| |].
      + apply Forall_map, Forall_forall. intros t _. unfold d. assert (E := exp_pos (g t)). destruct (_ && _); lra.
      + apply Exists_exists. exists (d (0 + INR 0 * ((1 - 0) / INR (10 * 3 - 1)))). split.
        * apply in_map. unfold linspace. apply in_map_iff. exists 0%nat. split; [reflexivity|apply in_seq; lia].
        * unfold d. simpl INR. rewrite !Rleb_true by lra. assert (E := exp_pos (g (0 + 0 * ((1 - 0) / INR (10 * 3 - 1))))). simpl. simpl in E. lra.
    - intros _. unfold xlinspace. rewrite map_map. rewrite (map_ext _ (fun t => Fin (d t))).
      + rewrite <- (map_map d Fin). apply trapezoid_fin.
      + intros t. unfold node_scale. cbn [in_log]. rewrite Hg. unfold in_range. cbn [fst snd]. rewrite fge_fin, fle_fin. unfold d.
        destruct (_ && _); cbn [of_bool]; autorewrite with xf; reflexivity.
  Qed.
  Lemma wit_outcome x1 x2 y2 g0 g1 N : 1/2 <= y2 ->
    spl "cubic"%string (map Fin [0; x1; x2]) (map Fin [0; 1; 0]) (Fin 0) = Fin g0 ->
    spl "cubic"%string (map Fin [0; x1; x2]) (map Fin [0; 1; 0]) (Fin (1/2)) = Fin g1 ->
    0 < N -> trapezoid (column spl s (map Fin [0; x1; x2]) (map Fin [0; 1; 0]) (Fin 0, Fin y2) (in_xs s)) (in_xs s) = Fin N ->
    outcome spl s (map Fin [0; x1; x2]) (map Fin [0; 1; 0]) (Fin 0, Fin y2) wcols "a_1" =
    [Fin (exp g0 * exp g0 / N ^ 2); Fin (exp g1 * exp g0 / N ^ 2)].
  Proof.
    intros Hy H0 H1 HN HT. unfold outcome. rewrite HT, fpow_nat by auto.
    assert (Ep : in_params s = ["a_1"; "a_2"]%string) by (injection Hs as <-; reflexivity).
    rewrite Ep. cbn [map List.length]. unfold prod_cols. cbn [fold_left].
    change (wcols "a_1") with [Fin 0; Fin (1/2)]. change (wcols "a_2") with [Fin 0; Fin 0].
    assert (Ek : in_kind s = "cubic"%string) by (injection Hs as <-; reflexivity).
    assert (El : in_log s = false) by (injection Hs as <-; reflexivity).
    unfold column, node_scale. rewrite Ek, El. cbn [map]. cbn [map] in H0, H1. rewrite H0, H1.
    unfold in_range. cbn [fst snd]. rewrite !fge_fin, !fle_fin, !Rleb_true by lra. cbn [andb of_bool].
    assert (N2 : N ^ 2 <> 0) by (apply pow_nonzero; lra).
    unfold zipWith. cbn [combine map fst snd]. autorewrite with xf. rewrite !fdiv_fin by auto.
    do 2 f_equal; [|do 2 f_equal]; field; lra.
  Qed.
End Witness.

Lemma C35_stale_nodes_refuted_pf :
  forall bk spl,
  (forall kind nodes vals i, (i < List.length nodes)%nat -> List.length vals = List.length nodes -> NoDup nodes ->
      spl kind nodes vals (nth i nodes NaN) = nth i vals NaN) ->
  (forall kind nodes f t, List.length f = List.length nodes -> exists r, spl kind (map Fin nodes) (map Fin f) (Fin t) = Fin r) ->
  let call := p_x_identical bk spl in
  exists s kw1 kw2 ds a b, spin_magnitude_init 0 1 3 "cubic" false = Ok s /\
    snd (call ds kw2 s) = Ok [Fin a; Fin a] /\
    snd (call ds kw2 (run call [(ds, kw1)] s)) = Ok [Fin b; Fin (exp 1 * b)] /\ 0 < a /\ 0 < b.
Proof.
  intros bk spl Ex Fi call. destruct (spin_magnitude_init 0 1 3 "cubic" false) as [s|e] eqn:Hs; [|discriminate].
  exists s, (wkw 0 (1/2) 1 0 1 0), (wkw 0 (1/4) (1/2) 0 1 0), wds.
  assert (C : forall q, In q (in_params s) -> dget q wds = Some (wcols q) /\ List.length (wcols q) = 2%nat).
  { injection Hs as <-. intros q [<-|[<-|[]]]; split; reflexivity. }
  assert (Ep : in_params s = ["a_1"; "a_2"]%string) by (injection Hs as <-; reflexivity).
  assert (Fr : in_norm s = None) by (injection Hs as <-; reflexivity).
  assert (K1 : dget (fkey (in_base s) (in_nodes s)) (wkw 0 (1/2) 1 0 1 0) = None) by (injection Hs as <-; reflexivity).
  assert (K2 : dget (fkey (in_base s) (in_nodes s)) (wkw 0 (1/4) (1/2) 0 1 0) = None) by (injection Hs as <-; reflexivity).
  assert (X1 : extract_spline_points s (wkw 0 (1/2) 1 0 1 0) = Ok (map Fin [0; 1; 0], map Fin [0; 1/2; 1])) by (injection Hs as <-; reflexivity).
  assert (X2 : extract_spline_points s (wkw 0 (1/4) (1/2) 0 1 0) = Ok (map Fin [0; 1; 0], map Fin [0; 1/4; 1/2])) by (injection Hs as <-; reflexivity).
  assert (ND : forall u v, 0 < u -> u < v -> NoDup (map Fin [0; u; v])).
  { intros u v Hu Hv. repeat constructor; simpl; intros H; repeat destruct H as [H|H]; try injection H; try lra; auto. }
  assert (V : forall u v i, 0 < u -> u < v -> (i < 3)%nat -> spl "cubic"%string (map Fin [0; u; v]) (map Fin [0; 1; 0]) (nth i (map Fin [0; u; v]) NaN) = nth i (map Fin [0; 1; 0]) NaN).
  { intros. apply Ex; auto. }
  destruct (wit_norm spl Fi s Hs (1/4) (1/2) (1/2)) as [N [HN TN]].
  destruct (wit_norm spl Fi s Hs (1/2) 1 (1/2)) as [N' [HN' TN']].
  exists (exp 0 * exp 0 / N ^ 2), (exp 0 * exp 0 / N' ^ 2).
  split; [reflexivity|].
  assert (E0 : forall M : R, 0 < M -> 0 < exp 0 * exp 0 / M ^ 2).
  { intros M HM. rewrite exp_0. apply Rdiv_lt_0_compat; [lra|]. now apply pow_lt. }
  split; [|split; [|split; auto]].
  - unfold call. rewrite (call_fresh bk spl s wds _ _ _ wcols (Fin 0, Fin (1/2)) 2 "a_1" ["a_2"%string] Fr Ep K2 X2 eq_refl C).
    cbn [snd]. rewrite (wit_outcome spl s Hs (1/4) (1/2) (1/2) 0 0 N); auto; try lra.
    + apply (V (1/4) (1/2) 0%nat); try lra; lia.
    + apply (V (1/4) (1/2) 2%nat); try lra; lia.
    + apply TN; lra.
  - cbn [run fst snd]. unfold call.
    rewrite (call_fresh bk spl s wds _ _ _ wcols (Fin 0, Fin 1) 2 "a_1" ["a_2"%string] Fr Ep K1 X1 eq_refl C). cbn [fst].
    rewrite (call_built bk spl s wds _ _ _ _ wcols (Fin 0, Fin (1/2)) 2 "a_1" ["a_2"%string] Ep K2 X2 eq_refl C). cbn [snd].
    rewrite (wit_outcome spl s Hs (1/2) 1 (1/2) 0 1 N'); auto; try lra.
    + replace (exp 1 * (exp 0 * exp 0 / N' ^ 2)) with (exp 1 * exp 0 / N' ^ 2) by (rewrite exp_0; field; lra). reflexivity.
    + apply (V (1/2) 1 0%nat); try lra; lia.
    + apply (V (1/2) 1 1%nat); try lra; lia.
    + apply TN'; lra.
Qed.

Lemma multiply_data_irrelevant bk spl st ds1 ds2 x f ps lohi p0 : in_norm st <> None -> ends x = Ok lohi ->
  (forall q, In q ps -> exists c1 c2, dget q ds1 = Some c1 /\ dget q ds2 = Some c2 /\ map (in_range lohi) c1 = map (in_range lohi) c2) ->
  multiply_params bk spl ps ds2 x f p0 st = multiply_params bk spl ps ds1 x f p0 st.
Proof.
  intros Hn He. revert p0; induction ps as [|q ps IH]; intros p0 H; [reflexivity|].
  cbn [multiply_params]. unfold sbind. rewrite !unnormed_built by auto.
  destruct (H q) as [c1 [c2 [H1 [H2 H3]]]]; [now left|].
  rewrite (dlookup_ok _ _ _ H1), (dlookup_ok _ _ _ H2). destruct (dlookup q (in_data st)) as [sp|e]; cbn [bind]; [|reflexivity].
  rewrite He. cbn [bind]. rewrite H3. destruct (bcast_into bk fmul _ _) as [v|e]; [|reflexivity]. unfold slift.
  destruct (bcast_into bk fmul p0 v) as [p1|e]; [|reflexivity]. apply IH. intros; apply H; now right.
Qed.

Lemma C35_new_data_ignored_refuted_pf :
  forall bk spl s ds1 kw1 f1 x1 ds2 kw2 f2 x2,
  in_norm s = None -> in_params s <> [] ->
  dget (fkey (in_base s) (in_nodes s)) kw1 = None -> dget (fkey (in_base s) (in_nodes s)) kw2 = None ->
  extract_spline_points s kw1 = Ok (f1, x1) -> extract_spline_points s kw2 = Ok (f2, x2) -> x2 <> [] ->
  (forall q, In q (in_params s) -> exists c1 c2, dget q ds1 = Some c1 /\ dget q ds2 = Some c2 /\
     List.length c1 = List.length c2 /\
     forall t, In t c1 \/ In t c2 -> fge t (hd NaN x2) && fle t (last x2 NaN) = true) ->
  let call := p_x_identical bk spl in
  snd (call ds2 kw2 (run call [(ds1, kw1)] s)) = snd (call ds1 kw2 (run call [(ds1, kw1)] s)).
Proof.
  intros bk spl s ds1 kw1 f1 x1 ds2 kw2 f2 x2 Hn Hp K1 K2 E1 E2 Hx H call.
  assert (D : forall q, In q (in_params s) -> dget q ds1 = Some (dget_default q [] ds1)).
  { intros q Hq. destruct (H q Hq) as [c1 [c2 [E _]]]. unfold dget_default. now rewrite E. }
  cbn [run fst snd]. unfold call at 2 4. rewrite (call_fresh_built bk spl s ds1 kw1 f1 x1 _ Hn Hp K1 E1 D).
  rewrite built_call_state by auto. set (st := built s x1 (data_of s x1 (fun q => dget_default q [] ds1))).
  unfold call. rewrite !call_eq by auto. change (extract_spline_points st) with (extract_spline_points s). rewrite E2. cbn [fst snd].
  change (in_params st) with (in_params s).
  assert (M : forall p0, multiply_params bk spl (in_params s) ds2 x2 f2 p0 st = multiply_params bk spl (in_params s) ds1 x2 f2 p0 st).
  { intros p0. apply (multiply_data_irrelevant bk spl st ds1 ds2 x2 f2 (in_params s) (hd NaN x2, last x2 NaN)); [discriminate|now apply ends_hd_last|].
    intros q Hq. destruct (H q Hq) as [c1 [c2 [A1 [A2 [A3 A4]]]]]. exists c1, c2. split; auto. split; auto.
    assert (forall c, (forall t, In t c -> fge t (hd NaN x2) && fle t (last x2 NaN) = true) -> map (in_range (hd NaN x2, last x2 NaN)) c = repeat (Fin 1) (List.length c)) as R1.
    { intros c Hc. induction c as [|t c IH]; simpl; auto. rewrite IH by (intros; apply Hc; now right). unfold in_range at 1. cbn [fst snd].
      rewrite Hc by now left. reflexivity. }
    rewrite !R1 by (intros; apply A4; auto). now rewrite A3. }
  destruct (in_params s) as [|p ps] eqn:Ep; [congruence|].
  destruct (H p) as [c1 [c2 [A1 [A2 [A3 A4]]]]]; [now left|].
  rewrite (dlookup_ok _ _ _ A1), (dlookup_ok _ _ _ A2).
  assert (ON : map (fun _ : xf => Fin 1) c2 = map (fun _ : xf => Fin 1) c1).
  { clear - A3. revert c2 A3; induction c1 as [|a c1 IH]; intros [|b c2] A3; try discriminate; auto. simpl. f_equal. apply IH. now injection A3. }
  rewrite ON, M. reflexivity.
Qed.

Lemma C82_failed_call_refuted_pf :
  forall bk spl s ds1 kw1 f1 x1 p ps q0,
  in_norm s = None -> in_data s = [] -> in_params s = p :: ps ->
  dget (fkey (in_base s) (in_nodes s)) kw1 = None -> extract_spline_points s kw1 = Ok (f1, x1) ->
  (exists c, dget p ds1 = Some c) -> In q0 ps -> dget q0 ds1 = None ->
  let call := p_x_identical bk spl in
  (exists q, dget q ds1 = None /\ snd (call ds1 kw1 s) = Err (KeyError q)) /\
  forall ds2 kw2 f2 x2,
    dget (fkey (in_base s) (in_nodes s)) kw2 = None -> extract_spline_points s kw2 = Ok (f2, x2) ->
    snd (call ds2 kw2 (run call [(ds1, kw1)] s)) = Err (KeyError p).
Proof.
  intros bk spl s ds1 kw1 f1 x1 p ps q0 Hn Hd Hp K1 E1 [c Hc] Hq Hq0 call.
  assert (C : exists q, dget q ds1 = None /\ call ds1 kw1 s = (built s x1 [], Err (KeyError q))).
  { unfold call. rewrite call_eq by auto. rewrite E1. cbn [fst snd]. rewrite Hp. rewrite (dlookup_ok _ _ _ Hc).
    destruct (setup_err s x1 ds1 q0) as [q [A1 [A2 A3]]]; [rewrite Hp; now right|auto|]. exists q. split; auto.
    cbn [multiply_params]. unfold sbind. unfold p_x_unnormed, sbind, sget. rewrite Hn, A3, Hd. reflexivity. }
  destruct C as [q [A1 A2]]. split; [exists q; now rewrite A2|].
  intros ds2 kw2 f2 x2 K2 E2. cbn [run fst snd]. rewrite A2. cbn [fst]. unfold call. rewrite call_eq by auto.
  rewrite extract_built, E2. change (in_params (built s x1 [])) with (in_params s). rewrite Hp. cbn [fst snd].
  unfold dlookup at 1. destruct (dget p ds2) as [c2|]; [|reflexivity].
  cbn [multiply_params]. unfold sbind. rewrite unnormed_built by discriminate. reflexivity.
Qed.

Lemma C36_inferred_count_pf :
  forall s kwargs, exists m, (in_nodes s <= m)%nat /\
  (forall i, (in_nodes s <= i < m)%nat -> In ("f" ++ in_base s ++ str_nat i)%string (dkeys kwargs)) /\
  ~ In ("f" ++ in_base s ++ str_nat m)%string (dkeys kwargs) /\
  (m = in_nodes s -> infer_n_nodes kwargs s = (s, Ok tt)) /\
  (m <> in_nodes s -> in_class s = NoBase -> infer_n_nodes kwargs s = (s, Err TypeError)) /\
  (m <> in_nodes s -> in_class s <> NoBase ->
     exists s', infer_n_nodes kwargs s = (s', Ok tt) /\ in_nodes s' = m /\ in_class s' = in_class s /\ in_norm s' = None).
Proof.
  intros s kw. set (m := first_missing (S (List.length kw)) (in_base s) (in_nodes s) kw).
  destruct (first_missing_spec (S (List.length kw)) (in_base s) (in_nodes s) kw) as [H1 [H2 H3]]. fold m in H1, H2, H3.
  assert (H4 := first_missing_stops (in_base s) (in_nodes s) kw). fold m in H4.
  exists m. split; [lia|]. split; [intros i Hi; apply dmem_in, H2; exact Hi|].
  split; [intros H; apply dmem_in in H; unfold fkey in H4; congruence|].
  unfold infer_n_nodes. fold m.
  split; [intros E; now rewrite E, Nat.eqb_refl|]. split.
  - intros N C. apply Nat.eqb_neq in N. rewrite N, C. reflexivity.
  - intros N C. apply Nat.eqb_neq in N. rewrite N. destruct (in_class s); [congruence| |];
      (eexists; split; [reflexivity|]; split; [reflexivity|]; split; reflexivity).
Qed.

Lemma C36_range_lost_refuted_pf :
  forall lo hi n kind reg kwargs,
  (forall s, spin_magnitude_init lo hi n kind reg = Ok s -> In ("fa" ++ str_nat n)%string (dkeys kwargs) ->
     exists m s', (n < m)%nat /\ infer_n_nodes kwargs s = (s', Ok tt) /\ spin_magnitude_init 0 1 m "cubic" false = Ok s') /\
  (forall s, spin_tilt_init lo hi n kind reg = Ok s -> In ("fcos_tilt" ++ str_nat n)%string (dkeys kwargs) ->
     exists m s', (n < m)%nat /\ infer_n_nodes kwargs s = (s', Ok tt) /\ spin_tilt_init (-1) 1 m "cubic" false = Ok s').
Proof.
  intros lo hi n kind reg kw. split; intros s Hs Hin; apply dmem_in in Hin.
  - assert (B : in_base s = "a"%string /\ in_nodes s = n /\ in_class s = SpinMagnitude) by (injection Hs as <-; repeat split; reflexivity).
    destruct B as [B1 [B2 B3]].
    destruct (first_missing_spec (S (List.length kw)) (in_base s) (in_nodes s) kw) as [H1 [H2 _]].
    assert (H4 := first_missing_stops (in_base s) (in_nodes s) kw).
    set (m := first_missing (S (List.length kw)) (in_base s) (in_nodes s) kw) in *.
    assert (N : m <> in_nodes s). { intros E. rewrite E, B1, B2 in H4. change (fkey "a" n) with ("fa" ++ str_nat n)%string in H4. congruence. }
    exists m. eexists. split; [lia|]. split; [|reflexivity].
    unfold infer_n_nodes. fold m. apply Nat.eqb_neq in N. rewrite N, B3. reflexivity.
  - assert (B : in_base s = "cos_tilt"%string /\ in_nodes s = n /\ in_class s = SpinTilt) by (injection Hs as <-; repeat split; reflexivity).
    destruct B as [B1 [B2 B3]].
    destruct (first_missing_spec (S (List.length kw)) (in_base s) (in_nodes s) kw) as [H1 [H2 _]].
    assert (H4 := first_missing_stops (in_base s) (in_nodes s) kw).
    set (m := first_missing (S (List.length kw)) (in_base s) (in_nodes s) kw) in *.
    assert (N : m <> in_nodes s). { intros E. rewrite E, B1, B2 in H4. change (fkey "cos_tilt" n) with ("fcos_tilt" ++ str_nat n)%string in H4. congruence. }
    exists m. eexists. split; [lia|]. split; [|reflexivity].
    unfold infer_n_nodes. fold m. apply Nat.eqb_neq in N. rewrite N, B3. reflexivity.
Qed.

Lemma Rsum_scale_sq c l : Rsum (map (fun v => v * v) (map (fun v => v * c) l)) = c * c * Rsum (map (fun v => v * v) l).
Proof. induction l as [|a l IH]; simpl; [ring|]. unfold Rsum in *. simpl. rewrite IH. ring. Qed.
Lemma Rsum_sq_nonneg l : 0 <= Rsum (map (fun v => v * v) l).
Proof. apply Rsum_nonneg. apply Forall_map, Forall_forall. intros v _. apply Rle_0_sqr. Qed.
Lemma Rsum_sq_pos l : Exists (fun v => v <> 0) l -> 0 < Rsum (map (fun v => v * v) l).
Proof.
  induction l as [|a l IH]; intros H; [inversion H|]. simpl. assert (P := Rsum_sq_nonneg l). unfold Rsum in *.
  inversion H as [? ? H0|? ? H0]; subst.
  - assert (0 < a * a) by (apply Rsqr_pos_lt; auto). simpl. lra.
  - specialize (IH H0). assert (0 <= a * a) by apply Rle_0_sqr. simpl. lra.
Qed.

Lemma C37_regularised_values_pf :
  forall s kwargs (v : list R) x,
  mapM (fun k => dlookup k kwargs) (in_fkeys s) = Ok (map Fin v) ->
  mapM (fun k => dlookup k kwargs) (in_xkeys s) = Ok x ->
  (in_regularize s = false -> extract_spline_points s kwargs = Ok (map Fin v, x)) /\
  (forall rms, in_regularize s = true -> dget ("rms" ++ in_base s)%string kwargs = Some (Fin rms) ->
     Exists (fun a => a <> 0) v ->
     exists c, let v' := map (fun a => a * c) v in
       extract_spline_points s kwargs = Ok (map Fin v', x) /\
       sqrt (Rsum (map (fun a => a * a) v') / INR (List.length v')) = Rabs rms /\ (0 <= rms -> 0 <= c)).
Proof.
  intros s kw v x Hf Hx. unfold extract_spline_points. rewrite Hf. cbn [bind]. split.
  - intros ->. cbn [bind]. rewrite Hx. reflexivity.
  - intros rms -> Hr Hv. rewrite (dlookup_ok (rmskey (in_base s)) kw (Fin rms)) by exact Hr. cbn [bind]. rewrite Hx. cbn [bind].
    assert (Nv : v <> []) by (destruct v; [inversion Hv|discriminate]).
    assert (LP : 0 < INR (List.length v)) by (apply lt_0_INR; destruct v; [congruence|simpl; lia]).
    assert (SP := Rsum_sq_pos v Hv).
    set (M := Rsum (map (fun a => a * a) v) / INR (List.length v)).
    assert (MP : 0 < M) by (apply Rdiv_lt_0_compat; auto).
    assert (E : fmean (map fsq (map Fin v)) = Fin M).
    { rewrite map_map. rewrite (map_ext _ (fun a => Fin (a * a))) by reflexivity. rewrite <- (map_map (fun a => a * a) Fin).
      rewrite fmean_map_fin by (destruct v; [congruence|discriminate]). now rewrite map_length. }
    rewrite E, fpow_fin by auto.
    assert (SQ : Rpower M (1 / 2) = sqrt M). { replace (1 / 2) with (/ 2) by lra. now apply Rpower_sqrt. }
    assert (SP2 : 0 < sqrt M) by now apply sqrt_lt_R0.
    rewrite SQ, fdiv_fin by lra. exists (rms / sqrt M). cbv zeta. split; [|split].
    + do 2 f_equal. rewrite !map_map. apply map_ext. intros; reflexivity.
    + rewrite Rsum_scale_sq, map_length.
      replace (rms / sqrt M * (rms / sqrt M) * Rsum (map (fun a => a * a) v) / INR (List.length v)) with (Rsqr rms).
      * apply sqrt_Rsqr_abs.
      * assert (EM : Rsum (map (fun a => a * a) v) = M * INR (List.length v)) by (unfold M; field; lra).
        rewrite EM. clearbody M. unfold Rsqr.
        replace (rms / sqrt M * (rms / sqrt M) * (M * INR (List.length v)) / INR (List.length v))
          with (rms * rms / (sqrt M * sqrt M) * M) by (field; lra).
        rewrite sqrt_sqrt by lra. field. lra.
    + intros H. apply Rmult_le_pos; auto. left. now apply Rinv_0_lt_compat.
Qed.

Lemma C81_names_are_the_keywords_pf :
  forall c param params lo hi n kind log reg s kwargs, interp_init c (param :: params) lo hi n kind log reg = Ok s ->
  ((forall k, In k (interp_variable_names s) -> In k (dkeys kwargs)) -> exists f x, extract_spline_points s kwargs = Ok (f, x)) /\
  (forall k, In k (interp_variable_names s) -> ~ In k (dkeys kwargs) ->
     exists k', extract_spline_points s kwargs = Err (KeyError k') /\ In k' (interp_variable_names s) /\ ~ In k' (dkeys kwargs)) /\
  List.length (interp_variable_names s) = (n + n + if reg then 1 else 0)%nat /\ NoDup (in_xkeys s) /\ NoDup (in_fkeys s).
Proof.
  intros c param params lo hi n kind log reg s kw Hs.
  destruct (init_fields _ _ _ _ _ _ _ _ _ _ Hs) as (_ & I1 & _ & I2 & I3 & I4 & I5 & I6 & I7 & I8 & I9 & I10).
  assert (OK : forall ks, (forall k, In k ks -> In k (dkeys kw)) -> exists l, mapM (fun k => dlookup k kw) ks = Ok l).
  { intros ks H. destruct (mapM _ ks) as [l|e] eqn:E; [eauto|]. apply mapM_err_inv in E. destruct E as [k [Hk E]].
    specialize (H k Hk). apply dmem_in in H. unfold dmem in H. unfold dlookup in E. destruct (dget k kw); discriminate. }
  assert (ER : forall ks e, mapM (fun k => dlookup k kw) ks = Err e -> exists k, In k ks /\ ~ In k (dkeys kw) /\ e = KeyError k).
  { intros ks e E. apply mapM_err_inv in E. destruct E as [k [Hk E]]. exists k. split; auto. unfold dlookup in E.
    destruct (dget k kw) eqn:G; [discriminate|]. injection E as <-. split; auto. intros H. apply dmem_in in H. unfold dmem in H. now rewrite G in H. }
  assert (ER1 : forall k e, dlookup k kw = Err e -> ~ In k (dkeys kw) /\ e = KeyError k).
  { intros k e E. unfold dlookup in E. destruct (dget k kw) eqn:G; [discriminate|]. injection E as <-. split; auto.
    intros H. apply dmem_in in H. unfold dmem in H. now rewrite G in H. }
  assert (CASES : (exists f x, extract_spline_points s kw = Ok (f, x) /\ forall k, In k (interp_variable_names s) -> In k (dkeys kw)) \/
                  (exists k', extract_spline_points s kw = Err (KeyError k') /\ In k' (interp_variable_names s) /\ ~ In k' (dkeys kw))).
  { unfold extract_spline_points, interp_variable_names.
    assert (IN : forall ks l, mapM (fun k => dlookup k kw) ks = Ok l -> forall k, In k ks -> In k (dkeys kw)).
    { intros ks l E k Hk. destruct (dmem k kw) eqn:G; [now apply dmem_in|]. exfalso. apply dmem_none in G.
      destruct (mapM_err_in (fun k => dlookup k kw) ks k (KeyError k) Hk) as [e' E']; [unfold dlookup; now rewrite G|congruence]. }
    destruct (mapM (fun k => dlookup k kw) (in_fkeys s)) as [f|e] eqn:Ef; cbn [bind].
    2:{ right. destruct (ER _ _ Ef) as [k [A [B ->]]]. exists k. split; [reflexivity|]. split; auto. rewrite !in_app_iff. auto. }
    destruct (in_regularize s).
    - destruct (dlookup (rmskey (in_base s)) kw) as [r|e] eqn:Er; cbn [bind].
      2:{ right. destruct (ER1 _ _ Er) as [B ->]. eexists. split; [reflexivity|]. split; auto. rewrite !in_app_iff. right; right; now left. }
      destruct (mapM (fun k => dlookup k kw) (in_xkeys s)) as [x|e] eqn:Ex; cbn [bind].
      2:{ right. destruct (ER _ _ Ex) as [k [A [B ->]]]. exists k. split; [reflexivity|]. split; auto. rewrite !in_app_iff. auto. }
      left. do 2 eexists. split; [reflexivity|]. intros k. rewrite !in_app_iff. intros [H|[H|[H|[]]]]; [exact (IN _ _ Ex k H)|exact (IN _ _ Ef k H)|].
      subst k. destruct (dmem (rmskey (in_base s)) kw) eqn:G; [now apply dmem_in|]. apply dmem_none in G. unfold dlookup in Er. now rewrite G in Er.
    - cbn [bind]. destruct (mapM (fun k => dlookup k kw) (in_xkeys s)) as [x|e] eqn:Ex; cbn [bind].
      2:{ right. destruct (ER _ _ Ex) as [k [A [B ->]]]. exists k. split; [reflexivity|]. split; auto. rewrite !in_app_iff. auto. }
      left. do 2 eexists. split; [reflexivity|]. intros k. rewrite !in_app_iff. intros [H|[H|[]]]; [exact (IN _ _ Ex k H)|exact (IN _ _ Ef k H)]. }
  split; [|split; [|split; [|split]]].
  - intros H. destruct CASES as [[f [x [E _]]]|[k' [_ [A B]]]]; [eauto|]. exfalso. auto.
  - intros k Hk Hn. destruct CASES as [[f [x [E A]]]|C]; [|exact C]. exfalso. auto.
  - unfold interp_variable_names. rewrite !app_length, I8, I9, I10, !map_length, !seq_length. destruct reg; simpl; lia.
  - rewrite I9. apply FinFun.Injective_map_NoDup; [intros a b; apply xkey_inj|apply seq_NoDup].
  - rewrite I8. apply FinFun.Injective_map_NoDup; [intros a b; apply fkey_inj|apply seq_NoDup].
Qed.

