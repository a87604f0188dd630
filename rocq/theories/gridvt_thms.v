(** Proofs of the property theorems stated in [Props_gridvt]. *)
From Coq Require Import Reals Lra Lia String Bool Sorted.
From Coquelicot Require Import Coquelicot.
From Coq Require Import List.
From Verif Require Import Xf Py Xf_facts Py_facts Spec Utils_model Trap_facts Np Vt_model SpecVt.
Import ListNotations.
Local Open Scope R_scope.

Lemma si_ss l : strictly_increasing l -> StronglySorted Rlt l.
Proof.
  intros H. apply Sorted_StronglySorted; [intros x y z; apply Rlt_trans|]. induction l as [|x l IH]; constructor.
  - apply IH. destruct l; simpl in *; tauto.
  - destruct l; constructor. simpl in H; tauto.
Qed.
Lemma ss_unique (l l' : list R) : StronglySorted Rlt l -> StronglySorted Rlt l' -> (forall x, In x l <-> In x l') -> l = l'.
Proof.
  intros H; revert l'. induction H as [|x l H IH F]; intros l' H' E.
  - destruct l' as [|y l']; [reflexivity|]. destruct (proj2 (E y)); now left.
  - destruct H' as [|y l' H' F']; [destruct (proj1 (E x)); now left|].
    rewrite Forall_forall in F, F'.
    assert (XY : x = y).
    { destruct (proj1 (E x) (or_introl eq_refl)) as [->|I]; [reflexivity|]. destruct (proj2 (E y) (or_introl eq_refl)) as [->|J]; [reflexivity|].
      apply F' in I. apply F in J. lra. }
    subst y. f_equal. apply IH; auto. intros z. split; intros I.
    + destruct (proj1 (E z) (or_intror I)) as [->|J]; auto. apply F in I. lra.
    + destruct (proj2 (E z) (or_intror I)) as [->|J]; auto. apply F' in I. lra.
Qed.
Fixpoint rins (x : R) (l : list R) : list R :=
  match l with
  | [] => [x]
  | y :: l' => if Rlt_dec x y then x :: l else if Req_EM_T x y then l else y :: rins x l'
  end.
Lemma insert_fin x l : insert_unique (Fin x) (map Fin l) = map Fin (rins x l).
Proof.
  induction l as [|y l IH]; [reflexivity|]. cbn [map insert_unique rins]. rewrite flt_fin, feq_fin.
  destruct (Rlt_dec x y); [now rewrite Rltb_true|]. rewrite Rltb_false by lra. destruct (Req_EM_T x y); [now rewrite Reqb_true|]. rewrite Reqb_false by auto. cbn [map]. now rewrite IH.
Qed.
Lemma rins_in x l z : In z (rins x l) <-> z = x \/ In z l.
Proof.
  induction l as [|y l IH]; simpl; [intuition|]. destruct (Rlt_dec x y); [simpl; intuition|]. destruct (Req_EM_T x y); [subst; simpl; intuition|]. simpl. rewrite IH. tauto.
Qed.
Lemma rins_ss x l : StronglySorted Rlt l -> StronglySorted Rlt (rins x l).
Proof.
  induction 1 as [|y l H IH F]; simpl; [repeat constructor|]. rewrite Forall_forall in F. destruct (Rlt_dec x y).
  - constructor; [constructor; auto; now apply Forall_forall|]. apply Forall_forall. intros z [<-|I]; auto. apply F in I. lra.
  - destruct (Req_EM_T x y); [constructor; auto; now apply Forall_forall|]. constructor; auto. apply Forall_forall. intros z I. apply rins_in in I. destruct I as [->|I]; [lra|auto].
Qed.
Lemma unique_fin l c : strictly_increasing c -> (forall x, In x l <-> In x c) -> unique (map Fin l) = map Fin c.
Proof.
  intros Hc E. 
  assert (U : unique (map Fin l) = map Fin (fold_right rins [] l) /\ StronglySorted Rlt (fold_right rins [] l) /\ forall x, In x (fold_right rins [] l) <-> In x l).
  { clear. induction l as [|x l (U & S & I)]; [split; [reflexivity|split; [constructor|intros; reflexivity]]|]. cbn [map fold_right unique]. unfold unique in U. cbn [fold_right]. rewrite U, insert_fin. 
    split; [reflexivity|]. split; [now apply rins_ss|]. intros z. rewrite rins_in, I. simpl. intuition. }
  destruct U as (-> & S & I). f_equal. apply ss_unique; auto; [now apply si_ss|]. intros x. now rewrite I.
Qed.
Lemma indices_spec coords idx : In idx (indices (map (@List.length R) coords)) <-> inside coords idx.
Proof.
  revert idx. induction coords as [|c cs IH]; intros idx; cbn [map indices].
  - simpl. split; [intros [<-|[]]; constructor|inversion 1; auto].
  - rewrite in_flat_map. split.
    + intros [i [I H]]. apply in_map_iff in H. destruct H as [r [<- H]]. apply IH in H. apply in_seq in I. constructor; [lia|auto].
    + inversion 1 as [|i c' r cs' I Q]; subst. exists i. split; [apply in_seq; lia|]. apply in_map. now apply IH.
Qed.
Lemma inside_pick coords i j : Forall (fun c => c <> []) coords -> (i < List.length coords)%nat -> (j < List.length (nth i coords []))%nat ->
  exists idx, inside coords idx /\ nth i idx O = j.
Proof.
  intros H; revert i. induction H as [|c cs Hc H IH]; simpl; intros i I J; [lia|].
  destruct i as [|i].
  - assert (Z : exists idx, inside cs idx).
    { clear -H. induction H as [|c cs Hc H IH]; [exists []; constructor|]. destruct IH as [r R0]. exists (0%nat :: r). constructor; auto. destruct c; [congruence|simpl; lia]. }
    destruct Z as [r R0]. exists (j :: r). split; [now constructor|reflexivity].
  - destruct (IH i) as (r & R0 & E); [lia|auto|]. exists (0%nat :: r). split; [constructor; auto; destruct c; [congruence|simpl; lia]|exact E].
Qed.
Lemma inside_nth coords idx i : inside coords idx -> (i < List.length coords)%nat -> (nth i idx O < List.length (nth i coords []))%nat.
Proof.
  intros H; revert i. induction H as [|j c idx cs J H IH]; simpl; intros i I; [lia|]. destruct i; [auto|]. apply IH. lia.
Qed.
Lemma values_fin coords i a : meshgrid coords i a -> Forall strictly_increasing coords -> Forall (fun c => c <> []) coords ->
  unique (flatten a) = map Fin (nth i coords []).
Proof.
  intros (S & I & A) Hs Hn. unfold flatten. rewrite S.
  rewrite (map_ext_in (ar_at a) (fun idx => Fin (nth (nth i idx O) (nth i coords []) 0))) by (intros idx H; apply A; now apply indices_spec).
  rewrite <- (map_map (fun idx => nth (nth i idx O) (nth i coords []) 0) Fin). apply unique_fin.
  - rewrite Forall_forall in Hs. apply Hs. now apply nth_In.
  - intros x. rewrite in_map_iff. split.
    + intros (idx & <- & H). apply nth_In. apply inside_nth; auto. now apply indices_spec.
    + intros H. apply (In_nth _ _ 0) in H. destruct H as (j & J & E). destruct (inside_pick coords i j Hn I J) as (idx & H & N). exists idx. split; [now rewrite N|now apply indices_spec].
Qed.
Lemma first_axis_nth shape j i : NoDup shape -> (j < List.length shape)%nat -> first_axis (nth j shape O) i shape = Ok (i + j)%nat.
Proof.
  intros H; revert i j. induction H as [|m shape N H IH]; simpl; intros i j J; [lia|]. destruct j as [|j].
  - rewrite Nat.eqb_refl. f_equal. lia.
  - destruct (Nat.eqb_spec m (nth j shape O)) as [E|E]; [exfalso; apply N; rewrite E; apply nth_In; lia|]. rewrite IH by lia. f_equal. lia.
Qed.
Lemma iget_iset {V} k k' (v : V) d : iget k (iset k' v d) = if Nat.eqb k k' then Some v else iget k d.
Proof.
  induction d as [|[k0 v0] d IH]; cbn [iset iget]; [reflexivity|]. destruct (Nat.eqb_spec k' k0) as [->|N]; cbn [iget].
  - destruct (Nat.eqb_spec k k0); reflexivity.
  - rewrite IH. destruct (Nat.eqb_spec k k0) as [->|]; [|reflexivity]. destruct (Nat.eqb_spec k0 k'); [congruence|reflexivity].
Qed.
Lemma iget_in {V} k (d : list (nat * V)) : In k (map fst d) <-> exists v, iget k d = Some v.
Proof.
  induction d as [|[k0 v0] d IH]; simpl; [split; [tauto|intros [v H]; discriminate]|]. destruct (Nat.eqb_spec k k0) as [->|N].
  - split; [eauto|auto].
  - rewrite <- IH. intuition congruence.
Qed.
Lemma iset_nodup {V} k (v : V) d : NoDup (map fst d) -> NoDup (map fst (iset k v d)).
Proof.
  intros H. induction d as [|[k0 v0] d IH]; cbn [iset map fst]; [repeat constructor; auto|]. inversion H; subst. destruct (Nat.eqb_spec k k0); cbn [map fst]; [exact H|].
  constructor; [|auto]. intros I. apply iget_in in I. destruct I as [x I]. rewrite iget_iset in I. destruct (Nat.eqb_spec k0 k); [congruence|]. apply H2. apply iget_in. eauto.
Qed.
Section Build.
  Variables (coords : list (list R)) (axis : string -> nat).
  Hypothesis ND : NoDup (map (@List.length R) coords).
  Lemma build_axes_spec vs acc : (forall k vals, In (k, vals) vs -> (axis k < List.length coords)%nat /\ vals = map Fin (nth (axis k) coords [])) ->
    NoDup (map fst acc) -> exists res, build_axes (map (@List.length R) coords) vs acc = Ok res /\ NoDup (map fst res) /\
      (forall i k, iget i res = Some k -> iget i acc = Some k \/ In k (map fst vs) /\ axis k = i) /\
      (forall i, (exists k, In k (map fst vs) /\ axis k = i) \/ (exists k, iget i acc = Some k) -> exists k, iget i res = Some k).
  Proof.
    revert acc. induction vs as [|[k vals] vs IH]; intros acc H Nd.
    - exists acc. split; [reflexivity|]. split; [auto|]. split; [auto|]. intros i [(k & [] & _)|E]; auto.
    - destruct (H k vals) as [A ->]; [now left|]. cbn [build_axes]. rewrite map_length.
      assert (L : List.length (nth (axis k) coords []) = nth (axis k) (map (@List.length R) coords) O).
      { change O with (@List.length R []). now rewrite map_nth. }
      rewrite L, first_axis_nth by (auto; now rewrite map_length). cbn [bind Nat.add].
      destruct (IH (iset (axis k) k acc)) as (res & E & Nr & S1 & S2); [intros; apply H; now right|now apply iset_nodup|].
      exists res. split; [exact E|]. split; [exact Nr|]. split.
      + intros i k' G. destruct (S1 i k' G) as [G'|[G' G'']]; [|right; split; [now right|auto]]. rewrite iget_iset in G'. destruct (Nat.eqb_spec i (axis k)) as [->|].
        * injection G' as <-. right. split; [now left|reflexivity].
        * now left.
      + intros i [(k' & [<-|I] & <-)|[k' I]].
        * apply S2. right. exists k. rewrite iget_iset, Nat.eqb_refl. reflexivity.
        * apply S2. left. eauto.
        * apply S2. right. rewrite iget_iset. destruct (Nat.eqb i (axis k)); eauto.
  Qed.
End Build.
Lemma iterated_ext coords f g : (forall idx, inside coords idx -> f idx = g idx) -> iterated coords f = iterated coords g.
Proof.
  revert f g. induction coords as [|c cs IH]; intros f g H; cbn [iterated]; [apply H; constructor|]. f_equal. apply map_ext_in. intros i I. apply in_seq in I. apply IH. intros idx J. apply H. constructor; [lia|auto].
Qed.
Lemma iterated_snoc cs c f : iterated (cs ++ [c]) f = iterated cs (fun idx => Rtrap (map (fun i => f (idx ++ [i])) (seq 0 (List.length c))) c).
Proof.
  revert f. induction cs as [|c0 cs IH]; intros f; cbn [iterated app]; [reflexivity|]. f_equal. apply map_ext. intros i. rewrite IH. reflexivity.
Qed.
Lemma firstn_snoc {A} n (l : list A) d : (n < List.length l)%nat -> firstn (S n) l = firstn n l ++ [nth n l d].
Proof. revert n; induction l as [|x l IH]; simpl; intros n H; [lia|]. destruct n; [reflexivity|]. cbn [firstn nth app]. f_equal. apply IH. lia. Qed.
Lemma integrate_spec bk g coords (axis : string -> nat) : 
  (forall i, (i < List.length coords)%nat -> exists k, iget i (gv_axes g) = Some k /\ dget k (gv_values g) = Some (map Fin (nth i coords []))) ->
  forall n a f, (n <= List.length coords)%nat -> ar_shape a = map (@List.length R) (firstn n coords) -> 
    (forall idx, inside (firstn n coords) idx -> ar_at a idx = Fin (f idx)) ->
    exists r, integrate_axes bk g n a = Ok r /\ ar_shape r = [] /\ ar_at r [] = Fin (iterated (firstn n coords) f).
Proof.
  intros H. induction n as [|n IH]; intros a f L S A.
  - exists a. split; [reflexivity|]. split; [exact S|]. apply A. constructor.
  - cbn [integrate_axes]. destruct (H n) as (k & E & V); [lia|]. rewrite E, (dlookup_ok _ _ _ V). cbn [bind]. unfold trapezoid_last.
    rewrite (firstn_snoc n coords []) in * by lia. rewrite S, map_app, rev_app_distr. cbn [map rev app]. rewrite map_length, Nat.eqb_refl. cbn [bind].
    rewrite iterated_snoc. apply IH; [lia|cbn [ar_shape]; apply rev_involutive|]. intros idx I. cbn [ar_at].
    rewrite (map_ext_in (fun i => ar_at a (idx ++ [i])) (fun i => Fin (f (idx ++ [i])))).
    + rewrite <- (map_map (fun i => f (idx ++ [i])) Fin). apply trapezoid_fin.
    + intros i J. apply in_seq in J. apply A. apply Forall2_app; auto. constructor; [lia|constructor].
Qed.
Lemma dmap_in {A B} (f : A -> B) d k v : In (k, v) (dmap f d) <-> exists a, v = f a /\ In (k, a) d.
Proof.
  unfold dmap. rewrite in_map_iff. split.
  - intros ([k' a] & E & I). cbn [fst snd] in E. injection E as -> <-. eauto.
  - intros (a & -> & I). exists (k, a). split; auto.
Qed.
Lemma dget_dmap {A B} (f : A -> B) d k : dget k (dmap f d) = match dget k d with Some a => Some (f a) | None => None end.
Proof. induction d as [|[k0 a] d IH]; [reflexivity|]. cbn [dmap map dget fst snd]. destruct (String.eqb k k0); [reflexivity|exact IH]. Qed.
Lemma in_dget {A} (d : dict A) k a : dwf d -> In (k, a) d -> dget k d = Some a.
Proof.
  unfold dwf. induction d as [|[k0 a0] d IH]; simpl; [tauto|]. intros N [E|I].
  - injection E as -> ->. now rewrite String.eqb_refl.
  - inversion N; subst. destruct (String.eqb_spec k k0) as [->|]; [|auto]. exfalso. apply H1. change k0 with (fst (k0, a)). apply in_map. exact I.
Qed.
Lemma dget_in {A} (d : dict A) k a : dget k d = Some a -> In (k, a) d.
Proof. induction d as [|[k0 a0] d IH]; simpl; [discriminate|]. destruct (String.eqb_spec k k0) as [->|]; intros H; [left; congruence|right; auto]. Qed.
Lemma grid_init_ok data axis coords vts : dwf data -> coords <> [] -> Forall strictly_increasing coords -> Forall (fun c => c <> []) coords ->
  NoDup (map (@List.length R) coords) -> dget "vt" data = Some vts ->
  (forall k a, k <> "vt"%string -> dget k data = Some a -> meshgrid coords (axis k) a) ->
  (forall i, (i < List.length coords)%nat -> exists k, k <> "vt"%string /\ dget k data <> None /\ axis k = i) ->
  exists g, gridvt_init data = (ddel "vt" data, Ok g) /\ gv_vts g = vts /\ gv_data g = ddel "vt" data /\ gv_ndim g = List.length coords /\
    (forall i, (i < List.length coords)%nat -> exists k, iget i (gv_axes g) = Some k /\ dget k (gv_values g) = Some (map Fin (nth i coords []))).
Proof.
  intros W NE SI NN ND V M C. unfold gridvt_init. rewrite V. cbv zeta.
  set (d' := ddel "vt" data). assert (W' : dwf d') by now apply dwf_ddel.
  assert (G : forall k a, In (k, a) d' -> k <> "vt"%string /\ dget k data = Some a).
  { intros k a I. apply (in_dget d') in I; auto. unfold d' in I. destruct (String.eqb_spec k "vt") as [->|N].
    - rewrite dget_ddel_same in I by auto. discriminate.
    - rewrite dget_ddel_other in I by auto. auto. }
  assert (VS : forall k vals, In (k, vals) (dmap (fun a => unique (flatten a)) d') -> (axis k < List.length coords)%nat /\ vals = map Fin (nth (axis k) coords [])).
  { intros k vals I. apply dmap_in in I. destruct I as (a & -> & I). apply G in I. destruct I as [N I]. assert (Mk := M k a N I). split; [apply Mk|]. now apply values_fin. }
  assert (K : forall k, k <> "vt"%string -> dget k data <> None -> In k (map fst (dmap (fun a => unique (flatten a)) d'))).
  { intros k N I. destruct (dget k data) as [a|] eqn:E; [|congruence]. assert (dget k d' = Some a) by (unfold d'; now rewrite dget_ddel_other).
    apply dget_in in H. change k with (fst (k, unique (flatten a))). apply in_map. apply dmap_in. eauto. }
  destruct (build_axes_spec coords axis ND (dmap (fun a => unique (flatten a)) d') [] VS (NoDup_nil _)) as (res & B & Nr & S1 & S2).
  assert (SH : exists k a r, d' = (k, a) :: r /\ ar_shape a = map (@List.length R) coords).
  { destruct d' as [|[k a] r] eqn:E.
    - destruct (C O) as (k & N & I & _); [destruct coords; [congruence|simpl; lia]|]. destruct (K k N I).
    - exists k, a, r. split; auto. destruct (G k a) as [N I]; [now left|]. apply (M k a N I). }
  destruct SH as (k0 & a0 & r0 & E0 & SH).
  assert (R0 : exists g, match d' with [] => Err IndexError | (_, a) :: _ => 
       axes <- build_axes (ar_shape a) (dmap (fun a => unique (flatten a)) d') [] ;;
       Ok {| gv_vts := vts; gv_data := d'; gv_values := dmap (fun a => unique (flatten a)) d'; gv_axes := axes; gv_ndim := List.length axes |} end = Ok g /\
       g = {| gv_vts := vts; gv_data := d'; gv_values := dmap (fun a => unique (flatten a)) d'; gv_axes := res; gv_ndim := List.length res |}).
  { destruct d' as [|[k1 a1] r1]; [congruence|]. injection E0 as -> -> ->. rewrite SH, B. cbn [bind]. eauto. }
  destruct R0 as (g & R0 & Eg). exists g. rewrite R0. split; [reflexivity|]. subst g. cbn [gv_vts gv_data gv_ndim gv_axes gv_values]. split; [auto|]. split; [auto|].
  assert (DOM : forall i, In i (map fst res) <-> (i < List.length coords)%nat).
  { intros i. rewrite iget_in. split.
    - intros [k I]. destruct (S1 i k I) as [I'|[I' <-]]; [discriminate|]. apply in_map_iff in I'. destruct I' as ([k' vals] & <- & I'). apply (VS k' vals I').
    - intros I. apply S2. left. destruct (C i I) as (k & N & J & <-). eauto. }
  split.
  - assert (P := Permutation.NoDup_Permutation Nr (seq_NoDup (List.length coords) 0)). rewrite <- (map_length fst res).
    rewrite (Permutation.Permutation_length (P ltac:(intros x; rewrite DOM, in_seq; lia))). apply seq_length.
  - intros i I. destruct (proj1 (iget_in i res) (proj2 (DOM i) I)) as [k E]. exists k. split; [exact E|].
    destruct (S1 i k E) as [D|[J <-]]; [discriminate|]. apply in_map_iff in J. destruct J as ([k' vals] & E' & J). cbn [fst] in E'. subst k'.
    assert (VV := VS k vals J). apply dmap_in in J. destruct J as (a & -> & J). rewrite dget_dmap, (in_dget d' k a W' J). f_equal. apply VV.
Qed.
Lemma iterated_linear coords a b f g : iterated coords (fun idx => a * f idx + b * g idx) = a * iterated coords f + b * iterated coords g.
Proof.
  revert f g. induction coords as [|c cs IH]; intros f g; cbn [iterated]; [reflexivity|].
  rewrite <- (Rtrap_linear a b) by (rewrite map_length; apply seq_length). f_equal.
  generalize (seq 0 (List.length c)). intros l. induction l as [|i l IHl]; [reflexivity|]. cbn [map]. unfold lin in *. cbn [map combine fst snd]. rewrite <- IHl. f_equal. apply (IH (fun idx => f (i :: idx)) (fun idx => g (i :: idx))).
Qed.

Lemma C55_iterated_trapezoid_pf :
  forall bk prob data axis coords vts parameters pa (p v : list nat -> R),
  dwf data -> coords <> [] -> Forall strictly_increasing coords -> Forall (fun c => c <> []) coords ->
  NoDup (map (@List.length R) coords) ->
  (forall k a, k <> "vt"%string -> dget k data = Some a -> meshgrid coords (axis k) a) ->
  (forall i, (i < List.length coords)%nat -> exists k, k <> "vt"%string /\ dget k data <> None /\ axis k = i) ->
  dget "vt" data = Some vts -> samples coords v vts ->
  prob (ddel "vt" data) parameters = Ok pa -> samples coords p pa ->
  exists g r, snd (gridvt_init data) = Ok g /\ gridvt_call bk prob g parameters = Ok r /\ ar_shape r = [] /\
    ar_at r [] = Fin (iterated coords (fun idx => p idx * v idx)).
Proof.
  intros bk prob data axis coords vts pr pa p v W NE SI NN ND M C V [SV AV] P [SP AP].
  destruct (grid_init_ok data axis coords vts W NE SI NN ND V M C) as (g & I & G1 & G2 & G3 & G4).
  exists g. rewrite I. unfold gridvt_call. rewrite G1, G2, G3, P. cbn [bind]. rewrite SP, SV. destruct (list_eq_dec _ _ _); [|congruence].
  destruct (integrate_spec bk g coords axis G4 (List.length coords) {| ar_shape := map (@List.length R) coords; ar_at := fun idx => fmul (ar_at pa idx) (ar_at vts idx) |} (fun idx => p idx * v idx))
    as (r & E & S & A); [lia|now rewrite firstn_all|cbn [ar_at]; rewrite firstn_all; intros idx H; rewrite AP, AV by auto; reflexivity|].
  exists r. rewrite firstn_all in A. auto.
Qed.

Lemma C55_linear_pf :
  forall bk prob axis coords parameters pa (p v1 v2 : list nat -> R) a b data1 data2 data3 t1 t2 t3,
  coords <> [] -> Forall strictly_increasing coords -> Forall (fun c => c <> []) coords -> NoDup (map (@List.length R) coords) ->
  samples coords p pa -> 
  (forall data, In data [data1; data2; data3] -> dwf data /\ prob (ddel "vt" data) parameters = Ok pa /\
     (forall k x, k <> "vt"%string -> dget k data = Some x -> meshgrid coords (axis k) x) /\
     (forall i, (i < List.length coords)%nat -> exists k, k <> "vt"%string /\ dget k data <> None /\ axis k = i)) ->
  dget "vt" data1 = Some t1 -> dget "vt" data2 = Some t2 -> dget "vt" data3 = Some t3 ->
  samples coords v1 t1 -> samples coords v2 t2 -> samples coords (fun idx => a * v1 idx + b * v2 idx) t3 ->
  exists g1 g2 g3 r1 r2 r3 x1 x2, snd (gridvt_init data1) = Ok g1 /\ snd (gridvt_init data2) = Ok g2 /\ snd (gridvt_init data3) = Ok g3 /\
    gridvt_call bk prob g1 parameters = Ok r1 /\ gridvt_call bk prob g2 parameters = Ok r2 /\ gridvt_call bk prob g3 parameters = Ok r3 /\
    ar_at r1 [] = Fin x1 /\ ar_at r2 [] = Fin x2 /\ ar_at r3 [] = Fin (a * x1 + b * x2).
Proof.
  intros bk prob axis coords pr pa p v1 v2 a b d1 d2 d3 t1 t2 t3 NE SI NN ND SP H V1 V2 V3 S1 S2 S3.
  destruct (H d1) as (W1 & P1 & M1 & C1); [simpl; auto|]. destruct (H d2) as (W2 & P2 & M2 & C2); [simpl; auto|]. destruct (H d3) as (W3 & P3 & M3 & C3); [simpl; auto|].
  destruct (C55_iterated_trapezoid_pf bk prob d1 axis coords t1 pr pa p _ W1 NE SI NN ND M1 C1 V1 S1 P1 SP) as (g1 & r1 & I1 & E1 & _ & A1).
  destruct (C55_iterated_trapezoid_pf bk prob d2 axis coords t2 pr pa p _ W2 NE SI NN ND M2 C2 V2 S2 P2 SP) as (g2 & r2 & I2 & E2 & _ & A2).
  destruct (C55_iterated_trapezoid_pf bk prob d3 axis coords t3 pr pa p _ W3 NE SI NN ND M3 C3 V3 S3 P3 SP) as (g3 & r3 & I3 & E3 & _ & A3).
  exists g1, g2, g3, r1, r2, r3. do 2 eexists. repeat (split; [eassumption|]). rewrite A3, <- iterated_linear. f_equal. apply iterated_ext. intros. ring.
Qed.

Definition two (c0 c1 : list R) : list (list R) := [c0; c1].
Lemma square_values c0 c1 i a : meshgrid [c0; c1] i a -> strictly_increasing c0 -> strictly_increasing c1 -> c0 <> [] -> c1 <> [] ->
  unique (flatten a) = map Fin (nth i [c0; c1] []).
Proof. intros. apply values_fin; auto. Qed.
Lemma C55_equal_lengths_refuted_pf :
  forall bk prob c0 c1 x y a0 a1 vts parameters pa (p v : list nat -> R),
  strictly_increasing c0 -> strictly_increasing c1 -> c0 <> [] -> List.length c0 = List.length c1 ->
  meshgrid [c0; c1] 0 a0 -> meshgrid [c0; c1] 1 a1 -> samples [c0; c1] v vts -> samples [c0; c1] p pa ->
  NoDup [x; y; "vt"%string] ->
  (prob [(x, a0); (y, a1)] parameters = Ok pa -> exists g r, snd (gridvt_init [(x, a0); (y, a1); ("vt"%string, vts)]) = Ok g /\
     gridvt_call bk prob g parameters = Ok r /\ ar_shape r = [List.length c0] /\
     forall i, (i < List.length c0)%nat -> ar_at r [i] = Fin (Rtrap (map (fun j => p [i; j] * v [i; j]) (seq 0 (List.length c1))) c1)) /\
  (prob [(y, a1); (x, a0)] parameters = Ok pa -> exists g r, snd (gridvt_init [(y, a1); (x, a0); ("vt"%string, vts)]) = Ok g /\
     gridvt_call bk prob g parameters = Ok r /\ ar_shape r = [List.length c0] /\
     forall i, (i < List.length c0)%nat -> ar_at r [i] = Fin (Rtrap (map (fun j => p [i; j] * v [i; j]) (seq 0 (List.length c1))) c0)).
Proof.
  intros bk prob c0 c1 x y a0 a1 vts pr pa p v S0 S1 N0 L M0 M1 [SV AV] [SP AP] ND.
  assert (N1 : c1 <> []) by (destruct c0, c1; simpl in L; congruence).
  assert (U0 := square_values c0 c1 0 a0 M0 S0 S1 N0 N1). assert (U1 := square_values c0 c1 1 a1 M1 S0 S1 N0 N1). cbn [nth] in U0, U1.
  destruct M0 as [H0 _]. destruct M1 as [H1 _]. cbn [map] in *.
  assert (D : x <> y /\ x <> "vt"%string /\ y <> "vt"%string). { inversion ND as [|? ? A B]; subst. inversion B as [|? ? A' B']; subst. simpl in *. intuition. }
  destruct D as (D1 & D2 & D3).
  assert (Fx : String.eqb "vt" x = false) by (apply String.eqb_neq; auto). assert (Fy : String.eqb "vt" y = false) by (apply String.eqb_neq; auto).
  assert (Fxy : String.eqb x y = false) by (apply String.eqb_neq; auto). assert (Fyx : String.eqb y x = false) by (apply String.eqb_neq; auto).
  assert (FV : forall i j, (i < List.length c0)%nat -> (j < List.length c1)%nat -> fmul (ar_at pa [i; j]) (ar_at vts [i; j]) = Fin (p [i; j] * v [i; j])).
  { intros. rewrite AP, AV by (repeat constructor; auto). reflexivity. }
  assert (TT : forall c i, (i < List.length c0)%nat -> trapezoid (map (fun j => fmul (ar_at pa [i; j]) (ar_at vts [i; j])) (seq 0 (List.length c1))) (map Fin c) =
     Fin (Rtrap (map (fun j => p [i; j] * v [i; j]) (seq 0 (List.length c1))) c)).
  { intros c i Hi. rewrite (map_ext_in _ (fun j => Fin (p [i; j] * v [i; j]))) by (intros j J; apply in_seq in J; apply FV; lia).
    rewrite <- (map_map (fun j => p [i; j] * v [i; j]) Fin). apply trapezoid_fin. }
  split; intros P.
  - unfold gridvt_init. cbn [dget ddel]. rewrite Fx, Fy. cbn [String.eqb Ascii.eqb Bool.eqb snd dmap map fst build_axes]. rewrite U0, U1, !map_length, H0. cbn [first_axis]. rewrite <- L, Nat.eqb_refl. cbn [bind build_axes first_axis iset]. rewrite Nat.eqb_refl. cbn [bind iset Nat.eqb].
    do 2 eexists. split; [reflexivity|]. unfold gridvt_call. cbn [gv_data gv_vts gv_ndim gv_axes gv_values List.length]. rewrite P. cbn [bind]. rewrite SP, SV. destruct (list_eq_dec _ _ _); [|congruence].
    cbn [integrate_axes iget gv_axes gv_values Nat.eqb]. unfold dlookup. cbn [dget dmap map fst snd]. rewrite Fyx, String.eqb_refl. cbn [bind]. unfold trapezoid_last. cbn [ar_shape rev app]. rewrite map_length, Nat.eqb_refl. cbn [bind ar_at rev app].
    split; [reflexivity|]. cbn [ar_shape ar_at rev app]. split; [auto|]. intros i Hi. rewrite L. rewrite L in Hi. rewrite <- L in Hi. now apply TT.
  - unfold gridvt_init. cbn [dget ddel]. rewrite Fx, Fy. cbn [String.eqb Ascii.eqb Bool.eqb snd dmap map fst build_axes]. rewrite U0, U1, !map_length, H1. cbn [first_axis]. rewrite <- L, Nat.eqb_refl. cbn [bind build_axes first_axis iset]. rewrite Nat.eqb_refl. cbn [bind iset Nat.eqb].
    do 2 eexists. split; [reflexivity|]. unfold gridvt_call. cbn [gv_data gv_vts gv_ndim gv_axes gv_values List.length]. rewrite P. cbn [bind]. rewrite SP, SV. destruct (list_eq_dec _ _ _); [|congruence].
    cbn [integrate_axes iget gv_axes gv_values Nat.eqb]. unfold dlookup. cbn [dget dmap map fst snd]. rewrite Fxy, String.eqb_refl. cbn [bind]. unfold trapezoid_last. cbn [ar_shape rev app]. rewrite map_length, L, Nat.eqb_refl. cbn [bind ar_at rev app].
    split; [reflexivity|]. cbn [ar_shape ar_at rev app]. split; [reflexivity|]. intros i Hi. apply TT. now rewrite L.
Qed.

Lemma C56_input_kept_refuted_pf :
  forall data vts, dwf data -> dget "vt" data = Some vts ->
  fst (gridvt_init data) <> data /\ dget "vt" (fst (gridvt_init data)) = None /\
  (forall k, k <> "vt"%string -> dget k (fst (gridvt_init data)) = dget k data) /\
  snd (gridvt_init (fst (gridvt_init data))) = Err (KeyError "vt").
Proof.
  intros data vts W V. assert (E : fst (gridvt_init data) = ddel "vt" data) by (unfold gridvt_init; rewrite V; reflexivity). rewrite E.
  assert (Nn : dget "vt" (ddel "vt" data) = None) by now apply dget_ddel_same. split; [intros Q; rewrite Q in Nn; congruence|]. split; [exact Nn|]. split.
  - intros k N. now apply dget_ddel_other.
  - unfold gridvt_init. rewrite Nn. reflexivity.
Qed.

