(** Lemmas about the interpolated models. *)
From Coq Require Import Reals Lra Lia Psatz String Bool Decimal DecimalString DecimalNat.
From Coquelicot Require Import Coquelicot.
From Coq Require Import List.
From Verif Require Import Xf Py St Xf_facts Py_facts Calc Spec Utils_model Powerlaw_facts Trap_facts Np Np_facts
  Mass_model Mass_facts Smoothed_model Smoothed_facts Interp_model.
Import ListNotations.
Local Open Scope R_scope.

(** ** Keys *)
Lemma append_inj_l (a b c : string) : (a ++ b = a ++ c)%string -> b = c.
Proof. induction a as [|x a IH]; simpl; intros H; auto. injection H; auto. Qed.
Lemma str_nat_inj n m : str_nat n = str_nat m -> n = m.
Proof.
  unfold str_nat. intros H. apply (f_equal NilEmpty.uint_of_string) in H. rewrite !NilEmpty.usu in H.
  injection H as H. now apply Unsigned.to_uint_inj.
Qed.
Lemma fkey_inj base n m : fkey base n = fkey base m -> n = m.
Proof. unfold fkey. intros H. apply append_inj_l in H. apply append_inj_l in H. now apply str_nat_inj. Qed.
Lemma xkey_inj base n m : xkey base n = xkey base m -> n = m.
Proof. unfold xkey. intros H. apply append_inj_l in H. now apply str_nat_inj. Qed.
Arguments fkey : simpl never.
Arguments xkey : simpl never.
Arguments rmskey : simpl never.

Lemma dmem_in {V} k (d : dict V) : dmem k d = true <-> In k (dkeys d).
Proof.
  unfold dmem. induction d as [|[k' v] d IH]; simpl; [split; [discriminate|tauto]|].
  destruct (String.eqb_spec k k') as [->|N]; [tauto|]. rewrite IH. split; [tauto|]. intros [H|H]; congruence || auto.
Qed.
Lemma dmem_get {V} k (d : dict V) : dmem k d = true <-> exists v, dget k d = Some v.
Proof. unfold dmem. destruct (dget k d); split; eauto; try discriminate. intros [v H]; discriminate. Qed.
Lemma dmem_none {V} k (d : dict V) : dmem k d = false <-> dget k d = None.
Proof. unfold dmem. destruct (dget k d); split; auto; discriminate. Qed.

(** The loop stops: among [length kwargs + 1] distinct keys one is missing. *)
Lemma first_missing_spec {V} fuel base n (kw : dict V) :
  let m := first_missing fuel base n kw in
  (n <= m <= n + fuel)%nat /\ (forall i, (n <= i < m)%nat -> dmem (fkey base i) kw = true) /\
  ((m < n + fuel)%nat -> dmem (fkey base m) kw = false).
Proof.
  revert n; induction fuel as [|fuel IH]; intros n; simpl.
  - split; [lia|]. split; intros; lia.
  - destruct (dmem (fkey base n) kw) eqn:E.
    + specialize (IH (S n)). simpl in IH. destruct IH as [H1 [H2 H3]]. split; [lia|]. split.
      * intros i Hi. destruct (Nat.eq_dec i n) as [->|]; auto. apply H2. lia.
      * intros H. apply H3. lia.
    + split; [lia|]. split; [intros; lia|auto].
Qed.
Lemma first_missing_stops {V} base n (kw : dict V) :
  dmem (fkey base (first_missing (S (List.length kw)) base n kw)) kw = false.
Proof.
  destruct (first_missing_spec (S (List.length kw)) base n kw) as [H1 [H2 H3]].
  apply H3. destruct (Nat.eq_dec (first_missing (S (List.length kw)) base n kw) (n + S (List.length kw))) as [E|]; [|lia].
  exfalso. rewrite E in H2.
  assert (L : (List.length (map (fkey base) (seq n (S (List.length kw)))) <= List.length (dkeys kw))%nat).
  { apply NoDup_incl_length.
    - apply FinFun.Injective_map_NoDup; [intros a b; apply fkey_inj|apply seq_NoDup].
    - intros k Hk. apply in_map_iff in Hk. destruct Hk as [i [<- Hi]]. apply in_seq in Hi. apply dmem_in, H2. lia. }
  unfold dkeys in L. rewrite !map_length, seq_length in L. lia.
Qed.
Lemma first_missing_same {V} base n (kw : dict V) : dget (fkey base n) kw = None ->
  first_missing (S (List.length kw)) base n kw = n.
Proof. intros H. simpl. apply dmem_none in H. now rewrite H. Qed.
Lemma infer_same s kw : dget (fkey (in_base s) (in_nodes s)) kw = None -> infer_n_nodes kw s = (s, Ok tt).
Proof. intros H. unfold infer_n_nodes. rewrite first_missing_same by auto. now rewrite Nat.eqb_refl. Qed.

(** ** Looking up a list of keys *)
Lemma mapM_err_inv {A B} (f : A -> result B) l e : mapM f l = Err e -> exists a, In a l /\ f a = Err e.
Proof.
  induction l as [|a l IH]; simpl; [discriminate|]. destruct (f a) as [b|e'] eqn:E; cbn [bind].
  - destruct (mapM f l) as [bs|e'] eqn:El; cbn [bind]; [discriminate|]. intros H; injection H as ->.
    destruct (IH eq_refl) as [x [Hx Hf]]. eauto.
  - intros H; injection H as ->. eauto.
Qed.
Lemma mapM_err_in {A B} (f : A -> result B) l a e : In a l -> f a = Err e -> exists e', mapM f l = Err e'.
Proof.
  induction l as [|x l IH]; intros H E; [destruct H|]. simpl. destruct H as [->|H].
  - rewrite E. eexists; reflexivity.
  - destruct (f x); cbn [bind]; [|eexists; reflexivity]. destruct (IH H E) as [e' ->]. eexists; reflexivity.
Qed.
Lemma mapM_lookup_ext {V} (d d' : dict V) ks : (forall k, In k ks -> dget k d = dget k d') ->
  mapM (fun k => dlookup k d) ks = mapM (fun k => dlookup k d') ks.
Proof.
  induction ks as [|k ks IH]; intros H; simpl; auto. unfold dlookup at 1 3. rewrite H by now left.
  rewrite IH by (intros; apply H; now right). reflexivity.
Qed.

(** ** Elementwise products *)
Lemma zipWith_length {A B C} (f : A -> B -> C) a b : List.length (zipWith f a b) = Nat.min (List.length a) (List.length b).
Proof. unfold zipWith. now rewrite map_length, combine_length. Qed.
Lemma bcast_into_same {A B} bk (f : A -> B -> A) a b : List.length a = List.length b -> bcast_into bk f a b = Ok (zipWith f a b).
Proof.
  intros E. unfold bcast_into, bcast, bcast2. rewrite E, Nat.eqb_refl. now destruct (is_jax bk).
Qed.
Lemma zipWith_map2 {A B C D} (f : B -> C -> D) (g : A -> B) (h : A -> C) l :
  zipWith f (map g l) (map h l) = map (fun x => f (g x) (h x)) l.
Proof. unfold zipWith. induction l as [|a l IH]; simpl; auto. now rewrite IH. Qed.
Lemma zipWith_nth {A B C} (f : A -> B -> C) a b i da db dc : (i < List.length a)%nat -> List.length a = List.length b ->
  nth i (zipWith f a b) dc = f (nth i a da) (nth i b db).
Proof.
  revert b i; induction a as [|x a IH]; intros [|y b] [|i] Hi E; simpl in *; try lia; auto. apply IH; lia.
Qed.
Lemma zipWith_cons {A B C} (f : A -> B -> C) x a y b : zipWith f (x :: a) (y :: b) = f x y :: zipWith f a b.
Proof. reflexivity. Qed.

(** ** The splines of an instance *)
Definition mk_spline (s : interp) (x : list xf) (points : list xf) : spline :=
  {| sp_kind := in_kind s; sp_nodes := node_scale s x; sp_points := node_scale s points |}.
Definition built (s : interp) (x : list xf) (data : dict spline) : interp := set_splines (Some (mk_spline s x (in_xs s))) data s.

Lemma setup_ok s x ds cols : (forall p, In p (in_params s) -> dget p ds = Some (cols p)) ->
  setup_interpolant x ds s = (built s x (map (fun p => (p, mk_spline s x (cols p))) (in_params s)), Ok tt).
Proof.
  intros H. unfold setup_interpolant.
  rewrite (mapM_ok_in _ (fun p => (p, mk_spline s x (cols p)))).
  - reflexivity.
  - intros p Hp. rewrite (dlookup_ok _ _ _ (H p Hp)). reflexivity.
Qed.
Lemma setup_err s x ds p : In p (in_params s) -> dget p ds = None ->
  exists q, In q (in_params s) /\ dget q ds = None /\ setup_interpolant x ds s = (built s x (in_data s), Err (KeyError q)).
Proof.
  intros Hp H. unfold setup_interpolant.
  destruct (mapM _ (in_params s)) as [l|e] eqn:E.
  - exfalso. edestruct (mapM_err_in (fun param => v <- dlookup param ds ;; Ok (param, {| sp_kind := in_kind s; sp_nodes := node_scale s x; sp_points := node_scale s v |})) (in_params s) p) as [e He]; eauto.
    + unfold dlookup. rewrite H. reflexivity.
    + rewrite He in E. discriminate.
  - apply mapM_err_inv in E. destruct E as [q [Hq E]]. unfold dlookup in E.
    destruct (dget q ds) eqn:Eq; cbn [bind] in E; [discriminate|]. injection E as <-. exists q. auto.
Qed.
Lemma dget_map_key {V} (f : string -> V) k ps : In k ps -> dget k (map (fun p => (p, f p)) ps) = Some (f k).
Proof.
  induction ps as [|p ps IH]; intros H; [destruct H|]. simpl. destruct (String.eqb_spec k p) as [->|N]; auto.
  destruct H as [->|H]; [congruence|auto].
Qed.

Section F.
  Context (bk : backend) (spl : string -> list xf -> list xf -> xf -> xf).

  (** On an instance with interpolants the evaluation does not touch the state. *)
  Lemma unnormed_built s ds param x f : in_norm s <> None ->
    p_x_unnormed bk spl ds param x f s =
    (s, sp <- dlookup param (in_data s) ;; xx <- dlookup param ds ;; lohi <- ends x ;;
        bcast_into bk fmul (map fexp (spline_at spl sp f)) (map (in_range lohi) xx)).
  Proof.
    intros H. unfold p_x_unnormed, sbind, sget, slift, sret. destruct (in_norm s); [|congruence].
    destruct (dlookup param (in_data s)); cbn [bind]; auto.
    destruct (dlookup param ds); cbn [bind]; auto. destruct (ends x); reflexivity.
  Qed.
  (** On a fresh instance: build the interpolants, then as above. *)
  Lemma unnormed_fresh s ds param x f cols : in_norm s = None ->
    (forall p, In p (in_params s) -> dget p ds = Some (cols p)) ->
    p_x_unnormed bk spl ds param x f s =
    p_x_unnormed bk spl ds param x f (built s x (map (fun p => (p, mk_spline s x (cols p))) (in_params s))).
  Proof.
    intros H Hc. unfold p_x_unnormed at 1. unfold sbind at 1, sget. rewrite H. unfold sbind at 1.
    rewrite (setup_ok s x ds cols Hc). reflexivity.
  Qed.
  Lemma multiply_fresh s ds x f p0 cols : in_norm s = None -> in_params s <> [] ->
    (forall p, In p (in_params s) -> dget p ds = Some (cols p)) ->
    multiply_params bk spl (in_params s) ds x f p0 s =
    multiply_params bk spl (in_params s) ds x f p0 (built s x (map (fun p => (p, mk_spline s x (cols p))) (in_params s))).
  Proof.
    intros H N Hc. destruct (in_params s) as [|p ps] eqn:Ep; [congruence|].
    change (p :: ps) with (p :: ps) in *. cbn [multiply_params]. unfold sbind.
    rewrite <- Ep in Hc |- *. rewrite (unnormed_fresh s ds p x f cols H Hc). reflexivity.
  Qed.
  Lemma multiply_built_state s ps ds x f p0 : in_norm s <> None -> fst (multiply_params bk spl ps ds x f p0 s) = s.
  Proof.
    intros H. revert p0; induction ps as [|p ps IH]; intros p0; [reflexivity|].
    cbn [multiply_params]. unfold sbind. rewrite unnormed_built by auto.
    destruct (sp <- dlookup p (in_data s);; _) as [v|e]; [|reflexivity]. unfold slift.
    destruct (bcast_into bk fmul p0 v) as [p1|e]; [|reflexivity]. apply IH.
  Qed.
  (** The column of one parameter, and the product. *)
  Definition column (s : interp) (x f : list xf) (lohi : xf * xf) (c : list xf) : list xf :=
    map (fun t => fmul (fexp (spl (in_kind s) (node_scale s x) f (if in_log s then flog t else t))) (in_range lohi t)) c.
  Lemma column_length s x f lohi c : List.length (column s x f lohi c) = List.length c.
  Proof. unfold column. now rewrite map_length. Qed.
  Lemma column_spline s x f lohi c :
    zipWith fmul (map fexp (spline_at spl (mk_spline s x c) f)) (map (in_range lohi) c) = column s x f lohi c.
  Proof.
    unfold spline_at, mk_spline, column, node_scale. cbn [sp_kind sp_nodes sp_points].
    destruct (in_log s); rewrite !map_map; apply (zipWith_map2 fmul).
  Qed.
  Lemma node_scale_length s l : List.length (node_scale s l) = List.length l.
  Proof. unfold node_scale. destruct (in_log s); now rewrite ?map_length. Qed.
  Lemma spline_at_length sp f : List.length (spline_at spl sp f) = List.length (sp_points sp).
  Proof. unfold spline_at. now rewrite map_length. Qed.

  Lemma unnormed_ok s0 s x x2 data ds param f c lohi : s = built s0 x data ->
    dget param data = Some (mk_spline s0 x c) -> dget param ds = Some c -> ends x2 = Ok lohi ->
    p_x_unnormed bk spl ds param x2 f s = (s, Ok (column s0 x f lohi c)).
  Proof.
    intros -> Hd Hc He. rewrite unnormed_built by discriminate. cbn [built set_splines in_data].
    rewrite (dlookup_ok _ _ _ Hd), (dlookup_ok _ _ _ Hc). cbn [bind]. rewrite He. cbn [bind].
    rewrite bcast_into_same. 
    - now rewrite column_spline.
    - rewrite !map_length, spline_at_length. unfold mk_spline. cbn [sp_points]. now rewrite node_scale_length.
  Qed.
  Definition prod_cols (cols : list (list xf)) (p0 : list xf) : list xf := fold_left (zipWith fmul) cols p0.
  Lemma multiply_ok s0 s x x2 data ds f cols lohi n ps p0 : s = built s0 x data ->
    (forall p, In p ps -> dget p data = Some (mk_spline s0 x (cols p)) /\ dget p ds = Some (cols p) /\ List.length (cols p) = n) ->
    ends x2 = Ok lohi -> List.length p0 = n ->
    multiply_params bk spl ps ds x2 f p0 s = (s, Ok (prod_cols (map (fun p => column s0 x f lohi (cols p)) ps) p0)).
  Proof.
    intros -> H He. revert p0; induction ps as [|p ps IH]; intros p0 L; [reflexivity|].
    destruct (H p) as [H1 [H2 H3]]; [now left|].
    cbn [multiply_params]. unfold sbind. rewrite (unnormed_ok s0 _ x x2 data ds p f (cols p) lohi) by auto.
    unfold slift. rewrite bcast_into_same by (rewrite column_length; congruence).
    rewrite IH; [reflexivity|intros; apply H; now right|]. rewrite zipWith_length, column_length. lia.
  Qed.
  Lemma norm_ok s0 x x2 data f lohi : ends x2 = Ok lohi ->
    norm_p_x bk spl (built s0 x data) f x2 = Ok (trapezoid (column s0 x f lohi (in_xs s0)) (in_xs s0)).
  Proof.
    intros He. unfold norm_p_x, built. cbn [set_splines in_norm in_xs]. rewrite He. cbn [bind].
    rewrite bcast_into_same; [|rewrite !map_length, spline_at_length; unfold mk_spline; cbn [sp_points]; now rewrite node_scale_length].
    now rewrite column_spline.
  Qed.

  (** The call on an instance whose interpolants were built for the node positions [x] and the columns [cols]. *)
  Definition outcome s x f lohi (cols : string -> list xf) p : list xf :=
    map (fun v => fdiv v (fpow (trapezoid (column s x f lohi (in_xs s)) (in_xs s)) (of_nat (List.length (in_params s)))))
          (prod_cols (map (fun p => column s x f lohi (cols p)) (in_params s)) (map (fun _ => Fin 1) (cols p))).
  Definition data_of (s : interp) x (cols : string -> list xf) : dict spline := map (fun p => (p, mk_spline s x (cols p))) (in_params s).
  Lemma call_eq s ds kw : dget (fkey (in_base s) (in_nodes s)) kw = None ->
    p_x_identical bk spl ds kw s =
    match extract_spline_points s kw with
    | Err e => (s, Err e)
    | Ok fx =>
      match (match in_params s with [] => Err IndexError | p :: _ => dlookup p ds end) with
      | Err e => (s, Err e)
      | Ok c =>
        match multiply_params bk spl (in_params s) ds (snd fx) (fst fx) (map (fun _ => Fin 1) c) s with
        | (s', Err e) => (s', Err e)
        | (s', Ok p_x) => (s', norm <- norm_p_x bk spl s' (fst fx) (snd fx) ;;
                               Ok (map (fun p => fdiv p (fpow norm (of_nat (List.length (in_params s'))))) p_x))
        end
      end
    end.
  Proof.
    intros H. unfold p_x_identical, sbind, sget, slift, sret. rewrite infer_same by auto.
    destruct (extract_spline_points s kw) as [fx|e]; [|reflexivity].
    destruct (match in_params s with [] => Err IndexError | p :: _ => dlookup p ds end) as [c|e]; [|reflexivity].
    destruct (multiply_params _ _ _ _ _ _ _ s) as [s' [px|e]]; [|reflexivity].
    destruct (norm_p_x bk spl s' (fst fx) (snd fx)); reflexivity.
  Qed.
  Lemma call_built s ds kw f x x2 cols lohi n p ps : in_params s = p :: ps ->
    dget (fkey (in_base s) (in_nodes s)) kw = None -> extract_spline_points s kw = Ok (f, x2) -> ends x2 = Ok lohi ->
    (forall q, In q (in_params s) -> dget q ds = Some (cols q) /\ List.length (cols q) = n) ->
    p_x_identical bk spl ds kw (built s x (data_of s x cols)) = (built s x (data_of s x cols), Ok (outcome s x f lohi cols p)).
  Proof.
    intros Ep Hi He Hends Hc.
    assert (Hp : In p (in_params s)) by (rewrite Ep; now left).
    rewrite call_eq by auto. change (extract_spline_points (built s x (data_of s x cols))) with (extract_spline_points s).
    rewrite He. change (in_params (built s x (data_of s x cols))) with (in_params s).
    replace (match in_params s with [] => _ | p :: _ => _ end) with (Ok (cols p)).
    2:{ rewrite Ep. symmetry. apply dlookup_ok. now apply Hc. }
    cbn [fst snd].
    rewrite (multiply_ok s _ x x2 (data_of s x cols) ds f cols lohi n); auto.
    2:{ intros q Hq. unfold data_of. rewrite (dget_map_key (fun p => mk_spline s x (cols p))) by auto. split; [reflexivity|now apply Hc]. }
    2:{ rewrite map_length. now apply Hc. }
    rewrite (norm_ok s x x2 _ f lohi Hends). reflexivity.
  Qed.
  (** A fresh instance behaves as one whose interpolants were built for this very call. *)
  Lemma call_fresh_built s ds kw f x cols : in_norm s = None -> in_params s <> [] ->
    dget (fkey (in_base s) (in_nodes s)) kw = None -> extract_spline_points s kw = Ok (f, x) ->
    (forall q, In q (in_params s) -> dget q ds = Some (cols q)) ->
    p_x_identical bk spl ds kw s = p_x_identical bk spl ds kw (built s x (data_of s x cols)).
  Proof.
    intros Hn Ep Hi He Hc. rewrite !call_eq by auto.
    change (extract_spline_points (built s x (data_of s x cols))) with (extract_spline_points s). rewrite He.
    change (in_params (built s x (data_of s x cols))) with (in_params s). cbn [fst snd].
    destruct (in_params s) as [|p ps] eqn:E; [congruence|]. rewrite <- E in Hc |- *.
    rewrite (dlookup_ok p ds (cols p)) by (apply Hc; rewrite E; now left).
    rewrite (multiply_fresh s ds x f _ cols Hn) by (auto; rewrite E; discriminate). reflexivity.
  Qed.
  Lemma call_fresh s ds kw f x cols lohi n p ps : in_norm s = None -> in_params s = p :: ps ->
    dget (fkey (in_base s) (in_nodes s)) kw = None -> extract_spline_points s kw = Ok (f, x) -> ends x = Ok lohi ->
    (forall q, In q (in_params s) -> dget q ds = Some (cols q) /\ List.length (cols q) = n) ->
    p_x_identical bk spl ds kw s = (built s x (data_of s x cols), Ok (outcome s x f lohi cols p)).
  Proof.
    intros Hn Ep Hi He Hends Hc. rewrite (call_fresh_built s ds kw f x cols); auto.
    - now apply (call_built s ds kw f x x cols lohi n p ps).
    - rewrite Ep; discriminate.
    - intros; now apply Hc.
  Qed.
End F.
