(** Proofs of the property theorems stated in [Props_hyperd]. *)
From Coq Require Import Reals ZArith Lra Lia Psatz String Bool.
From Coquelicot Require Import Coquelicot.
From Coq Require Import List.
From Verif Require Import Xf Py Xf_facts Py_facts Np Np_facts Interp_model Interp_facts Vt_model Hyperpe_model SpecHyper hypera_thms hyperc_thms.
Import ListNotations.
Local Open Scope R_scope.

Definition colm (k : string) (f : frame) : list xf := match dget k (fr_cols f) with Some c => c | None => [] end.
Lemma collect_ok l : forall acc, (forall f rows k, In (f, rows) l -> In k (dkeys acc) -> dget k (fr_cols f) <> None) ->
  collect acc l = Ok (map (fun kv : string * matrix => (fst kv, (snd kv ++ map (fun fr => take NaN (snd fr) (colm (fst kv) (fst fr))) l)%list)) acc).
Proof.
  induction l as [|[f rows] l IH]; intros acc H; cbn [collect].
  - f_equal. rewrite <- (map_id acc) at 1. apply map_ext. intros [k m]. cbn [map]. now rewrite app_nil_r.
  - rewrite (mapM_ok _ (fun kv : string * matrix => (fst kv, (snd kv ++ [take NaN rows (colm (fst kv) f)])%list))).
    2:{ intros [k m] I. cbn [fst snd]. assert (D := H f rows k (or_introl eq_refl) (in_map fst _ _ I)). unfold colm. destruct (dget k (fr_cols f)) as [c|] eqn:E; [|congruence]. rewrite (dlookup_ok _ _ _ E). reflexivity. }
    cbn [bind]. rewrite IH.
    + f_equal. rewrite map_map. apply map_ext. intros [k m]. cbn [fst snd map]. rewrite <- app_assoc. reflexivity.
    + intros f' rows' k I J. apply (H f' rows' k); [now right|]. unfold dkeys in *. rewrite map_map in J. exact J.
Qed.
Lemma collect_err l : forall acc f rows k, In (f, rows) l -> In k (dkeys acc) -> dget k (fr_cols f) = None -> exists k', In k' (dkeys acc) /\ collect acc l = Err (KeyError k').
Proof.
  induction l as [|[f0 r0] l IH]; intros acc f rows k I J D; [destruct I|]. cbn [collect].
  destruct (mapM _ acc) as [new|e] eqn:E.
  - cbn [bind]. assert (KN : dkeys new = dkeys acc).
    { clear -E. revert new E. induction acc as [|[k m] acc IHa]; intros new E; cbn [mapM] in E; [injection E as <-; reflexivity|]. destruct (dlookup (fst (k, m)) (fr_cols f0)) as [c|]; [|discriminate]. cbn [bind] in E.
      destruct (mapM _ acc) as [n|]; [|discriminate]. cbn [bind] in E. injection E as <-. cbn [dkeys map fst]. f_equal. exact (IHa n eq_refl). }
    destruct I as [I|I].
    + exfalso. injection I as -> ->. apply in_map_iff in J. destruct J as ([k' m] & <- & J). cbn [fst] in D.
      match type of E with mapM ?g acc = _ => destruct (mapM_err_in g acc (k', m) (KeyError k') J) as [e' Ee] end; [cbn [fst]; rewrite (dlookup_err _ _ D); reflexivity|rewrite Ee in E; discriminate].
    + destruct (IH new f rows k I (eq_ind_r (fun x => In k x) J KN) D) as (k' & K1 & K2). exists k'. now rewrite <- KN.
  - cbn [bind]. apply mapM_err_inv in E. destruct E as ([k' m] & A & B). cbn [fst snd] in B. destruct (dget k' (fr_cols f0)) as [c|] eqn:G; [rewrite (dlookup_ok _ _ _ G) in B; discriminate|]. rewrite (dlookup_err _ _ G) in B. cbn [bind] in B.
    exists k'. split; [exact (in_map fst _ _ A)|]. congruence.
Qed.
Lemma cap_fold l : forall m k, fold_left (fun m f => Some (match m with Some k => Nat.min (fr_len f) k | None => fr_len f end)) l (Some m) = Some k ->
  (k <= m)%nat /\ Forall (fun f => k <= fr_len f)%nat l /\ (k = m \/ exists f, In f l /\ k = fr_len f).
Proof.
  induction l as [|f l IH]; intros m k E; cbn [fold_left] in E.
  - injection E as <-. auto.
  - apply IH in E. destruct E as (A & B & C). split; [lia|]. split; [constructor; [lia|auto]|]. destruct C as [->|(g & G & ->)]; [|right; exists g; split; [now right|auto]].
    destruct (Nat.le_gt_cases (fr_len f) m); [right; exists f; split; [now left|lia]|left; lia].
Qed.
Lemma cap_some l ms : l <> [] -> exists k, cap_samples ms l = Some k.
Proof.
  intros N. destruct l as [|f l]; [congruence|]. unfold cap_samples. cbn [fold_left]. assert (G : forall l m, exists k, fold_left (fun m f => Some (match m with Some k => Nat.min (fr_len f) k | None => fr_len f end)) l (Some m) = Some k).
  { clear. induction l as [|g l IH]; intros m; cbn [fold_left]; eauto. }
  apply G.
Qed.
Lemma cap_spec l ms k : l <> [] -> cap_samples ms l = Some k ->
  Forall (fun f => k <= fr_len f)%nat l /\ (forall m, ms = Some m -> (k <= m)%nat) /\ (ms = Some k \/ exists f, In f l /\ k = fr_len f).
Proof.
  intros N E. unfold cap_samples in E. destruct ms as [m|].
  - apply cap_fold in E. destruct E as (A & B & C). repeat split; auto; [intros m' [= <-]; auto|]. destruct C as [->|C]; auto.
  - destruct l as [|f l]; [congruence|]. cbn [fold_left] in E. apply cap_fold in E. destruct E as (A & B & C). repeat split; [constructor; auto|discriminate|]. right. destruct C as [->|(g & G & ->)]; [exists f; split; [now left|auto]|exists g; split; [now right|auto]].
Qed.
Lemma dget_map_kv {V W} (f : string -> V -> W) k (d : dict V) : dget k (map (fun kv => (fst kv, f (fst kv) (snd kv))) d) = match dget k d with Some v => Some (f k v) | None => None end.
Proof.
  induction d as [|[k' v] d IH]; [reflexivity|]. cbn [map dget fst snd]. destruct (String.eqb k k') eqn:E; [|exact IH]. apply String.eqb_eq in E. now subst.
Qed.
Lemma C67_resample_pf :
  forall rows first posteriors max_samples,
  (forall i n k, (k <= n)%nat -> List.length (rows i n k) = k /\ NoDup (rows i n k) /\ Forall (fun j => j < n)%nat (rows i n k)) ->
  (forall f key, In f (first :: posteriors) -> In key (dkeys (fr_cols first)) -> dget key (fr_cols f) <> None) ->
  exists K data (drawn : nat -> list nat), resample_posteriors rows (first :: posteriors) max_samples = Ok (K, data) /\
    Forall (fun f => K <= fr_len f)%nat (first :: posteriors) /\ (forall m, max_samples = Some m -> (K <= m)%nat) /\
    (max_samples = Some K \/ exists f, In f (first :: posteriors) /\ K = fr_len f) /\
    dkeys data = dkeys (fr_cols first) /\
    (forall i f, nth_error (first :: posteriors) i = Some f ->
       List.length (drawn i) = K /\ NoDup (drawn i) /\ Forall (fun j => j < fr_len f)%nat (drawn i) /\
       forall key column, In key (dkeys data) -> dget key (fr_cols f) = Some column ->
         exists array, dget key data = Some array /\ List.length array = List.length (first :: posteriors) /\
           nth_error array i = Some (map (fun j => nth j column NaN) (drawn i))).
Proof.
  intros rows f0 ps ms HR HK. destruct (cap_some (f0 :: ps) ms ltac:(discriminate)) as [k E]. destruct (cap_spec (f0 :: ps) ms k ltac:(discriminate) E) as (A & B & C).
  set (fs := f0 :: ps) in *. set (drawn := fun i => rows i (fr_len (nth i fs f0)) k).
  set (pairs := combine fs (map drawn (seq 0 (List.length fs)))).
  assert (LP : List.length pairs = List.length fs) by (unfold pairs; rewrite combine_length, map_length, seq_length; lia).
  assert (NP : forall i f, nth_error fs i = Some f -> nth_error pairs i = Some (f, drawn i)).
  { intros i f Hf. assert (Li : (i < List.length fs)%nat) by (apply nth_error_Some; congruence).
    rewrite (nth_error_nth' pairs (f0, drawn i)) by (now rewrite LP). f_equal. unfold pairs. rewrite combine_nth by now rewrite map_length, seq_length.
    f_equal; [now apply nth_error_nth|]. rewrite (nth_indep _ (drawn i) (drawn 0%nat)) by (now rewrite map_length, seq_length). rewrite (map_nth drawn), seq_nth by auto. reflexivity. }
  assert (IN : forall f r, In (f, r) pairs -> In f fs) by (intros f r I; exact (in_combine_l _ _ _ _ I)).
  eexists k, _, drawn. split.
  { unfold resample_posteriors. unfold fs at 1. cbv iota beta. fold fs. rewrite E. fold drawn. fold pairs. rewrite collect_ok; [reflexivity|].
    intros f r key I J. apply HK; [exact (IN f r I)|]. unfold dkeys in J at 1. rewrite map_map in J. cbn [fst] in J. now rewrite map_id in J. }
  split; [exact A|]. split; [exact B|]. split; [exact C|]. rewrite map_map. cbn [fst snd app]. split.
  { unfold dkeys at 1. rewrite map_map. cbn [fst]. apply map_id. }
  intros i f Hf. assert (If : In f fs) by (eapply nth_error_In; eauto).
  assert (NF : nth i fs f0 = f) by now apply nth_error_nth. rewrite Forall_forall in A. destruct (HR i (fr_len f) k (A f If)) as (R1 & R2 & R3).
  unfold drawn. rewrite NF. split; [auto|]. split; [auto|]. split; [auto|]. intros key c J D.
  unfold dkeys in J at 1. rewrite map_map in J. cbn [fst] in J. rewrite map_id in J.
  eexists. split; [exact (dget_map_key (fun key => map (fun fr : frame * list nat => take NaN (snd fr) (colm key (fst fr))) pairs) key _ J)|]. split; [now rewrite map_length|].
  rewrite nth_error_map, (NP i f Hf). cbn [option_map fst snd]. unfold colm, drawn. rewrite D, NF. reflexivity.
Qed.

Lemma C67_shared_keys_refuted_pf :
  forall rows first posteriors max_samples f key, In f posteriors -> In key (dkeys (fr_cols first)) -> dget key (fr_cols f) = None ->
  exists k, In k (dkeys (fr_cols first)) /\ resample_posteriors rows (first :: posteriors) max_samples = Err (KeyError k).
Proof.
  intros rows f0 ps ms f key I J D. destruct (cap_some (f0 :: ps) ms ltac:(discriminate)) as [k E].
  destruct (In_nth_error _ _ (or_intror I : In f (f0 :: ps))) as [i Hi]. assert (Li : (i < List.length (f0 :: ps))%nat) by (apply nth_error_Some; congruence).
  set (drawn := fun i => rows i (fr_len (nth i (f0 :: ps) f0)) k).
  assert (IN : In (f, drawn i) (combine (f0 :: ps) (map drawn (seq 0 (List.length (f0 :: ps)))))).
  { replace (f, drawn i) with (nth i (combine (f0 :: ps) (map drawn (seq 0 (List.length (f0 :: ps))))) (f0, drawn 0%nat)).
    - apply nth_In. rewrite combine_length, map_length, seq_length. lia.
    - rewrite combine_nth by now rewrite map_length, seq_length. f_equal; [now apply nth_error_nth|]. rewrite (map_nth drawn), seq_nth by auto. reflexivity. }
  assert (JJ : In key (dkeys (map (fun key : string => (key, @nil (list xf))) (dkeys (fr_cols f0))))) by (unfold dkeys at 1; rewrite map_map; cbn [fst]; now rewrite map_id).
  destruct (collect_err _ _ f (drawn i) key IN JJ D) as (k' & K1 & K2).
  exists k'. split; [unfold dkeys in K1 at 1; rewrite map_map in K1; cbn [fst] in K1; now rewrite map_id in K1|].
  unfold resample_posteriors. rewrite E. fold drawn. rewrite K2. reflexivity.
Qed.

Lemma ddel_absent {V} k (d : dict V) : dget k d = None -> ddel k d = d.
Proof. induction d as [|[k' v] d IH]; [reflexivity|]. cbn [dget ddel]. destruct (String.eqb k k'); [discriminate|]. intros H. now rewrite IH. Qed.
Lemma fdiv_1 x : fdiv x (Fin 1) = x.
Proof. destruct x as [r| | |]; [rewrite fdiv_fin by lra; f_equal; field| | |reflexivity]; cbn [fdiv]; rewrite Rltb_false by lra; reflexivity. Qed.
Lemma C68_prior_pf :
  forall bk prob c rows posteriors hp ev max_samples u K data L, resample_posteriors rows posteriors max_samples = Ok (K, data) -> dwf data ->
  likelihood_init c rows posteriors hp ev max_samples u = Ok L ->
  (forall key, dget key (li_data L) = if String.eqb key "prior" then None else dget key data) /\
  (forall parameters P prior, dget "prior"%string data = Some prior -> prob (li_data L) parameters = Ok P -> map (@List.length xf) P = map (@List.length xf) prior ->
     exists w, event_weights bk prob L parameters = Ok w /\ List.length w = List.length P /\
       forall i j, (i < List.length P)%nat -> (j < List.length (nth i P []))%nat -> List.length (nth i w []) = List.length (nth i P []) /\ nth j (nth i w []) NaN = fdiv (nth j (nth i P []) NaN) (nth j (nth i prior []) NaN)) /\
  (forall parameters, dget "prior"%string data = None -> li_data L = data /\ event_weights bk prob L parameters = prob (li_data L) parameters).
Proof.
  intros bk prob c rows ps hp ev ms u K data L E WF I. unfold likelihood_init in I. rewrite E in I. cbn [bind] in I.
  assert (LD : li_data L = ddel "prior" data /\ li_prior L = dget "prior"%string data) by (destruct hp; try discriminate; injection I as <-; auto). clear I. destruct LD as [LD LP]. rewrite LD. split; [|split].
  - intros key. destruct (String.eqb key "prior") eqn:Q; [apply String.eqb_eq in Q; subst; now apply dget_ddel_same|]. apply dget_ddel_other. now apply String.eqb_neq.
  - intros p P q D HP SH. unfold event_weights. rewrite LD, HP, LP, D. cbn [bind mdiv]. unfold same_shape. destruct (list_eq_dec Nat.eq_dec _ _) as [_|N]; [|congruence].
    assert (LPq : List.length P = List.length q) by (apply (f_equal (@List.length nat)) in SH; now rewrite !map_length in SH).
    eexists. split; [reflexivity|]. split; [rewrite zipWith_length; lia|]. intros i j Hi Hj.
    assert (RL : List.length (nth i P []) = List.length (nth i q [])).
    { assert (A1 := map_nth (@List.length xf) P [] i). assert (A2 := map_nth (@List.length xf) q [] i). cbn beta in A1, A2. rewrite <- A1, <- A2, SH. reflexivity. }
    rewrite (zipWith_nth (zipWith fdiv) P q i [] [] []) by auto. split; [rewrite zipWith_length; lia|]. apply zipWith_nth; auto.
  - intros p D. rewrite ddel_absent by auto. split; [reflexivity|]. unfold event_weights. rewrite LD, LP, D, ddel_absent by auto. destruct (prob data p) as [P|]; [|reflexivity]. cbn [bind mdiv]. f_equal.
    rewrite <- (map_id P) at 2. apply map_ext. intros l. rewrite <- (map_id l) at 2. apply map_ext. apply fdiv_1.
Qed.

Lemma Rsum_cons a l : Rsum (a :: l) = a + Rsum l.
Proof. reflexivity. Qed.
Lemma Forall2_len {A B} (P : A -> B -> Prop) l m : Forall2 P l m -> List.length l = List.length m.
Proof. induction 1; simpl; auto. Qed.
Definition tab (N K : nat) (f : nat -> nat -> R) : matrix := map (fun i => map (fun j => Fin (f i j)) (seq 0 K)) (seq 0 N).
Definition rsum (K : nat) (f : nat -> R) : R := Rsum (map f (seq 0 K)).
Lemma tab_ext N K f g : (forall i j, (i < N)%nat -> (j < K)%nat -> f i j = g i j) -> tab N K f = tab N K g.
Proof. intros H. apply map_ext_in. intros i I. apply in_seq in I. apply map_ext_in. intros j J. apply in_seq in J. rewrite H by lia. reflexivity. Qed.
Lemma list_tab {A} (d : A) l : l = map (fun i => nth i l d) (seq 0 (List.length l)).
Proof. induction l as [|a l IH]; [reflexivity|]. cbn [List.length seq map nth]. f_equal. rewrite <- seq_shift, map_map. exact IH. Qed.
Lemma to_tab N K (W : list (list R)) : List.length W = N -> Forall (fun w => List.length w = K) W -> map (map Fin) W = tab N K (fun i j => nth j (nth i W []) 0).
Proof.
  intros <- H. unfold tab. rewrite (list_tab [] W) at 1. rewrite map_map. apply map_ext_in. intros i I. apply in_seq in I. rewrite Forall_forall in H.
  rewrite (list_tab 0 (nth i W [])) at 1. rewrite map_map. rewrite (H (nth i W [])) by (apply nth_In; lia). reflexivity.
Qed.
Lemma tab_lengths N K f : map (@List.length xf) (tab N K f) = repeat K N.
Proof. unfold tab. rewrite map_map. transitivity (map (fun _ => K) (seq 0 N)); [apply map_ext; intros i; now rewrite map_length, seq_length|]. clear. generalize 0%nat. induction N as [|N IH]; intros a; [reflexivity|]. cbn [seq map repeat]. now rewrite IH. Qed.
Lemma zipWith_map2' {A B C D} (f : B -> C -> D) (g : A -> B) (h : A -> C) l : zipWith f (map g l) (map h l) = map (fun x => f (g x) (h x)) l.
Proof. apply zipWith_map2. Qed.
Lemma madd_tab bk N K f g : madd bk (tab N K f) (tab N K g) = Ok (tab N K (fun i j => f i j + g i j)).
Proof.
  unfold madd, same_shape. destruct (list_eq_dec Nat.eq_dec _ _) as [_|Q]; [|rewrite !tab_lengths in Q; congruence]. f_equal. unfold tab. rewrite zipWith_map2. apply map_ext. intros i. rewrite zipWith_map2. apply map_ext. intros j. apply fadd_fin.
Qed.
Lemma fsum_seq K (f : nat -> R) : fsum (map (fun j => Fin (f j)) (seq 0 K)) = Fin (rsum K f).
Proof. apply fsum_fins. Qed.
Lemma norm_tab N K f : (forall i, (i < N)%nat -> rsum K (f i) <> 0) -> normalise_rows (tab N K f) = tab N K (fun i j => f i j / rsum K (f i)).
Proof.
  intros H. unfold normalise_rows, tab. rewrite map_map. apply map_ext_in. intros i I. apply in_seq in I. rewrite fsum_seq, map_map. apply map_ext. intros j. apply fdiv_fin. apply H. lia.
Qed.
Lemma Rsum_row (w : list R) K : List.length w = K -> rsum K (fun j => nth j w 0) = Rsum w.
Proof. intros <-. unfold rsum. now rewrite <- (list_tab 0 w). Qed.
Definition share (W : list (list R)) (i j : nat) : R := nth j (nth i W []) 0 / Rsum (nth i W []).
Lemma usable_nth N K W i : usable_weights N K W -> (i < N)%nat -> List.length (nth i W []) = K /\ Forall (fun x => 0 <= x) (nth i W []) /\ 0 < Rsum (nth i W []).
Proof. intros [L F] H. rewrite Forall_forall in F. apply F. apply nth_In. lia. Qed.
Lemma usable_tab N K W : usable_weights N K W -> map (map Fin) W = tab N K (fun i j => nth j (nth i W []) 0) /\ normalise_rows (map (map Fin) W) = tab N K (share W).
Proof.
  intros U. assert (E : map (map Fin) W = tab N K (fun i j => nth j (nth i W []) 0)). { destruct U as [L F]. apply to_tab; auto. eapply Forall_impl; [|exact F]. intros w H. apply H. }
  split; [exact E|]. rewrite E, norm_tab.
  - apply tab_ext. intros i j Hi Hj. destruct (usable_nth N K W i U Hi) as (L & _). now rewrite Rsum_row.
  - intros i Hi. destruct (usable_nth N K W i U Hi) as (L & _ & P). rewrite Rsum_row by auto. lra.
Qed.
Lemma accumulate_tab bk prob conv L N K samples : forall Ws f,
  Forall2 (fun sample W => exists cp, conv sample = Ok cp /\ weights_are prob L cp W /\ usable_weights N K W) samples Ws ->
  accumulate bk prob conv L samples (tab N K f) = Ok (tab N K (fun i j => f i j + Rsum (map (fun W => share W i j) Ws))).
Proof.
  induction samples as [|s samples IH]; intros Ws f H; inversion H as [|? W ? Ws' (cp & C & Wt & U) H']; subst; cbn [accumulate].
  - f_equal. apply tab_ext. intros. cbn. ring.
  - rewrite C. cbn [bind]. rewrite (ewt bk prob L cp W Wt). cbn [bind]. destruct (usable_tab N K W U) as [_ ->]. rewrite madd_tab. cbn [bind]. rewrite (IH Ws') by auto. f_equal. apply tab_ext. intros. cbn [map]. rewrite Rsum_cons. ring.
Qed.
Lemma Rsum_swap {A B} (f : A -> B -> R) l m : Rsum (map (fun a => Rsum (map (f a) m)) l) = Rsum (map (fun b => Rsum (map (fun a => f a b) l)) m).
Proof.
  induction l as [|a l IH]; cbn [map].
  - induction m as [|b m IHm]; [reflexivity|]. cbn [map]. rewrite Rsum_cons, <- IHm. cbn. ring.
  - rewrite Rsum_cons, IH. clear. induction m as [|b m IHm]; cbn [map]; [cbn; ring|]. rewrite !Rsum_cons, <- IHm. ring.
Qed.
Lemma Rsum_map_div {A} (f : A -> R) c l : Rsum (map (fun x => f x / c) l) = Rsum (map f l) / c.
Proof. induction l as [|a l IH]; cbn [map]; [cbn; unfold Rdiv; ring|]. rewrite !Rsum_cons, IH. unfold Rdiv. ring. Qed.
Lemma Rsum_ones {A} (f : A -> R) l : (forall x, In x l -> f x = 1) -> Rsum (map f l) = INR (List.length l).
Proof. induction l as [|a l IH]; intros H; [reflexivity|]. cbn [map]. rewrite Rsum_cons, IH by (intros; apply H; now right). rewrite (H a (or_introl eq_refl)). cbn [List.length]. rewrite S_INR. ring. Qed.
Lemma share_sum N K W i : usable_weights N K W -> (i < N)%nat -> rsum K (share W i) = 1.
Proof. intros U Hi. destruct (usable_nth N K W i U Hi) as (L & _ & P). unfold rsum, share. rewrite Rsum_map_div. change (Rsum (map (fun j => nth j (nth i W []) 0) (seq 0 K))) with (rsum K (fun j => nth j (nth i W []) 0)). rewrite Rsum_row by auto. field. lra. Qed.
Lemma share_nonneg N K W i j : usable_weights N K W -> (i < N)%nat -> (j < K)%nat -> 0 <= share W i j.
Proof. intros U Hi Hj. destruct (usable_nth N K W i U Hi) as (L & F & P). unfold share. apply Rdiv_le_0_compat; auto. rewrite Forall_forall in F. apply F, nth_In. lia. Qed.
Lemma Rsum_nonneg_map {A} (f : A -> R) l : (forall x, In x l -> 0 <= f x) -> 0 <= Rsum (map f l).
Proof. induction l as [|a l IH]; intros H; cbn [map]; [cbn; lra|]. rewrite Rsum_cons. assert (A1 := H a (or_introl eq_refl)). assert (A2 := IH (fun x I => H x (or_intror I))). lra. Qed.
Lemma pw_sum N K Ws i : Ws <> [] -> Forall (usable_weights N K) Ws -> (i < N)%nat -> rsum K (predictive_weight Ws i) = 1.
Proof.
  intros NE F Hi. assert (P : 0 < INR (List.length Ws)) by (apply lt_0_INR; destruct Ws; [congruence|simpl; lia]). unfold rsum.
  rewrite (map_ext _ (fun j => Rsum (map (fun W => share W i j) Ws) / INR (List.length Ws))) by (intros j; unfold predictive_weight, mean; now rewrite map_length). rewrite Rsum_map_div, Rsum_swap, Rsum_ones; [field; lra|]. intros W I. rewrite Forall_forall in F. exact (share_sum N K W i (F W I) Hi).
Qed.
Lemma pw_nonneg N K Ws i j : Ws <> [] -> Forall (usable_weights N K) Ws -> (i < N)%nat -> (j < K)%nat -> 0 <= predictive_weight Ws i j.
Proof.
  intros NE F Hi Hj. unfold predictive_weight, mean. rewrite map_length. apply Rdiv_le_0_compat; [|apply lt_0_INR; destruct Ws; [congruence|simpl; lia]]. apply Rsum_nonneg_map. intros W I. rewrite Forall_forall in F. exact (share_nonneg N K W i j (F W I) Hi Hj).
Qed.
Lemma final_tab N K Ws : Ws <> [] -> Forall (usable_weights N K) Ws -> normalise_rows (tab N K (fun i j => 0 + Rsum (map (fun W => share W i j) Ws))) = tab N K (predictive_weight Ws).
Proof.
  intros NE F. assert (P : 0 < INR (List.length Ws)) by (apply lt_0_INR; destruct Ws; [congruence|simpl; lia]).
  assert (S : forall i, (i < N)%nat -> rsum K (fun j => 0 + Rsum (map (fun W => share W i j) Ws)) = INR (List.length Ws)).
  { intros i Hi. unfold rsum. rewrite (map_ext _ (fun j => Rsum (map (fun W => share W i j) Ws))) by (intros; ring). rewrite Rsum_swap. apply Rsum_ones. intros W I. rewrite Forall_forall in F. exact (share_sum N K W i (F W I) Hi). }
  rewrite norm_tab; [|intros i Hi; rewrite S by auto; lra]. apply tab_ext. intros i j Hi Hj. rewrite S by auto. unfold predictive_weight, mean. rewrite map_length, Rplus_0_l. reflexivity.
Qed.
Lemma nth_tab N K f i : (i < N)%nat -> nth i (tab N K f) [] = map (fun j => Fin (f i j)) (seq 0 K).
Proof. intros H. unfold tab. rewrite (nth_indep _ [] (map (fun j => Fin (f 0%nat j)) (seq 0 K))) by (now rewrite map_length, seq_length). rewrite (map_nth (fun i => map (fun j => Fin (f i j)) (seq 0 K))), seq_nth by auto. reflexivity. Qed.
Lemma zeros_tab N K : repeat (repeat (Fin 0) K) N = tab N K (fun _ _ => 0).
Proof.
  unfold tab. assert (G : forall {A} (x : A) n a, repeat x n = map (fun _ => x) (seq a n)) by (intros A x; induction n as [|n IH]; intros a; [reflexivity|]; cbn [repeat seq map]; now rewrite (IH (S a))). now rewrite (G _ (Fin 0) K 0%nat), (G _ _ N 0%nat).
Qed.
Lemma ppr_eq bk prob conv choose L samples Ws : samples <> [] ->
  Forall2 (fun sample W => exists cp, conv sample = Ok cp /\ weights_are prob L cp W /\ usable_weights (li_n L) (li_samples L) W) samples Ws ->
  posterior_predictive_resample bk prob conv choose L samples =
    Ok (map (fun kv : string * matrix => (fst kv, map (fun ii => take NaN (choose ii (map (fun j => Fin (predictive_weight Ws ii j)) (seq 0 (li_samples L)))) (nth ii (snd kv) [])) (seq 0 (li_n L)))) (li_data L),
        tab (li_n L) (li_samples L) (predictive_weight Ws)).
Proof.
  intros NE H. set (N := li_n L) in *. set (K := li_samples L) in *.
  assert (NW : Ws <> []) by (intros ->; inversion H; congruence).
  assert (F : Forall (usable_weights N K) Ws). { clear -H. induction H as [|s W ss Ws (cp & _ & _ & U) H IH]; constructor; auto. }
  unfold posterior_predictive_resample. fold N K. rewrite zeros_tab, (accumulate_tab bk prob conv L N K samples Ws) by auto. cbn [bind]. cbv zeta. rewrite final_tab by auto.
  rewrite (mapM_ok _ (fun ii => choose ii (map (fun j => Fin (predictive_weight Ws ii j)) (seq 0 K)))).
  2:{ intros i I. apply in_seq in I. rewrite nth_tab by lia. unfold draw_rows.
      assert (V : valid_p (map (fun j => Fin (predictive_weight Ws i j)) (seq 0 K)) = true).
      { unfold valid_p. rewrite fsum_seq, (pw_sum N K Ws i) by (auto; lia). apply andb_true_intro. split; [|cbn [feq]; apply Reqb_refl].
        apply forallb_forall. intros y Y. apply in_map_iff in Y. destruct Y as (j & <- & J). apply in_seq in J. rewrite fle_fin. assert (0 <= predictive_weight Ws i j) by (apply (pw_nonneg N K); auto; lia). now apply Rleb_true. }
      rewrite V, orb_true_r. reflexivity. }
  cbn [bind]. do 2 f_equal. apply map_ext. intros [k m]. cbn [fst snd]. f_equal. apply map_ext_in. intros i I. apply in_seq in I. f_equal.
  set (g := fun ii => choose ii (map (fun j => Fin (predictive_weight Ws ii j)) (seq 0 K))). rewrite (nth_indep _ [] (g 0%nat)) by (rewrite map_length, seq_length; lia). rewrite (map_nth g), seq_nth by lia. reflexivity.
Qed.
Lemma C69_predictive_pf :
  forall bk prob conv choose L samples Ws, samples <> [] ->
  Forall2 (fun sample W => exists converted, conv sample = Ok converted /\ weights_are prob L converted W /\ usable_weights (li_n L) (li_samples L) W) samples Ws ->
  (forall i p, List.length (choose i p) = List.length p /\ Forall (fun j => (j < List.length p)%nat /\ nth j p NaN <> Fin 0) (choose i p)) ->
  exists new weights (drawn : nat -> list nat), posterior_predictive_resample bk prob conv choose L samples = Ok (new, weights) /\
    List.length weights = li_n L /\
    (forall i, (i < li_n L)%nat -> List.length (nth i weights []) = li_samples L /\ fsum (nth i weights []) = Fin 1 /\
       (forall j, (j < li_samples L)%nat -> nth j (nth i weights []) NaN = Fin (predictive_weight Ws i j) /\ 0 <= predictive_weight Ws i j) /\
       List.length (drawn i) = li_samples L /\ Forall (fun j => (j < li_samples L)%nat /\ 0 < predictive_weight Ws i j) (drawn i)) /\
    dkeys new = dkeys (li_data L) /\
    (forall key array, dget key (li_data L) = Some array -> exists array', dget key new = Some array' /\ List.length array' = li_n L /\
       forall i, (i < li_n L)%nat -> nth i array' [] = map (fun j => nth j (nth i array []) NaN) (drawn i)).
Proof.
  intros bk prob conv choose L samples Ws NE H HC. set (N := li_n L) in *. set (K := li_samples L) in *.
  assert (NW : Ws <> []) by (intros ->; inversion H; congruence).
  assert (F : Forall (usable_weights N K) Ws). { clear -H. induction H as [|s W ss Ws (cp & _ & _ & U) H IH]; constructor; auto. }
  assert (NT : forall i j, (j < K)%nat -> nth j (map (fun j => Fin (predictive_weight Ws i j)) (seq 0 K)) NaN = Fin (predictive_weight Ws i j)).
  { intros i j Hj. rewrite (nth_indep _ NaN (Fin (predictive_weight Ws i 0%nat))) by (now rewrite map_length, seq_length). rewrite (map_nth (fun j => Fin (predictive_weight Ws i j))), seq_nth by auto. reflexivity. }
  eexists _, _, (fun i => choose i (map (fun j => Fin (predictive_weight Ws i j)) (seq 0 K))). split; [exact (ppr_eq bk prob conv choose L samples Ws NE H)|]. fold N K. split; [unfold tab; now rewrite map_length, seq_length|]. split; [|split].
  - intros i Hi. rewrite nth_tab by auto. rewrite map_length, seq_length. split; [reflexivity|]. split; [rewrite fsum_seq, (pw_sum N K) by auto; reflexivity|]. split.
    + intros j Hj. split; [now apply NT|]. now apply (pw_nonneg N K).
    + destruct (HC i (map (fun j => Fin (predictive_weight Ws i j)) (seq 0 K))) as [C1 C2]. rewrite map_length, seq_length in C1, C2. split; [exact C1|]. eapply Forall_impl; [|exact C2]. intros j [J Z]. split; [exact J|].
      rewrite NT in Z by auto. assert (Q := pw_nonneg N K Ws i j NW F Hi J). destruct Q as [Q|Q]; auto. congruence.
  - unfold dkeys. rewrite map_map. reflexivity.
  - intros key M D. assert (G := dget_map_kv (V := matrix) (W := matrix) (fun _ m => map (fun ii => take NaN (choose ii (map (fun j => Fin (predictive_weight Ws ii j)) (seq 0 K))) (nth ii m [])) (seq 0 N)) key (li_data L)). rewrite D in G.
    eexists. split; [exact G|]. split; [now rewrite map_length, seq_length|]. intros i Hi.
    set (g := fun ii => take NaN (choose ii (map (fun j => Fin (predictive_weight Ws ii j)) (seq 0 K))) (nth ii M [])). rewrite (nth_indep _ [] (g 0%nat)) by (now rewrite map_length, seq_length). rewrite (map_nth g), seq_nth by auto. reflexivity.
Qed.

Lemma C69_scale_invariance_pf :
  forall bk prob prob' conv choose L samples samples' Ws (c : list R), samples <> [] ->
  Forall2 (fun sample W => exists converted, conv sample = Ok converted /\ weights_are prob L converted W /\ usable_weights (li_n L) (li_samples L) W) samples Ws ->
  List.length c = List.length Ws -> Forall (fun x => 0 < x) c ->
  Forall2 (fun sample W => exists converted, conv sample = Ok converted /\ weights_are prob' L converted W) samples' (map (fun cW => map (map (Rmult (fst cW))) (snd cW)) (combine c Ws)) ->
  posterior_predictive_resample bk prob' conv choose L samples' = posterior_predictive_resample bk prob conv choose L samples.
Proof.
  intros bk prob prob' conv choose L samples samples' Ws c NE H LC PC H'. set (N := li_n L) in *. set (K := li_samples L) in *.
  assert (F : Forall (usable_weights N K) Ws). { clear -H. induction H as [|s W ss Ws (cp & _ & _ & U) H IH]; constructor; auto. }
  assert (RS : forall x w, Rsum (map (Rmult x) w) = x * Rsum w). { intros x w. induction w as [|a w IH]; [cbn; ring|]. cbn [map]. rewrite !Rsum_cons, IH. ring. }
  assert (SC : forall x W, 0 < x -> usable_weights N K W -> usable_weights N K (map (map (Rmult x)) W)).
  { intros x W X [L1 U]. split; [now rewrite map_length|]. apply Forall_map. eapply Forall_impl; [|exact U]. intros w (A & B & C). split; [now rewrite map_length|]. split; [|rewrite RS; now apply Rmult_lt_0_compat].
    apply Forall_map. eapply Forall_impl; [|exact B]. intros y Y. apply Rmult_le_pos; lra. }
  assert (SH : forall x W i j, 0 < x -> nth j (nth i (map (map (Rmult x)) W) []) 0 / Rsum (nth i (map (map (Rmult x)) W) []) = nth j (nth i W []) 0 / Rsum (nth i W [])).
  { intros x W i j X. change (@nil R) with (map (Rmult x) []) at 1 2. rewrite (map_nth (map (Rmult x))), RS. replace 0 with (x * 0) at 1 by ring. rewrite (map_nth (Rmult x)). destruct (Req_dec (Rsum (nth i W [])) 0) as [Z|Z]; [rewrite Z, Rmult_0_r; unfold Rdiv; rewrite Rinv_0; ring|]. field. split; lra. }
  set (Ws' := map (fun cW => map (map (Rmult (fst cW))) (snd cW)) (combine c Ws)) in *.
  assert (PW : forall i j, predictive_weight Ws' i j = predictive_weight Ws i j).
  { intros i j. unfold predictive_weight. f_equal. unfold Ws'. rewrite map_map. clear -LC PC SH. revert c LC PC. induction Ws as [|W Ws IH]; intros [|x c] LC PC; try discriminate; [reflexivity|]. cbn [combine map fst snd]. inversion PC; subst. f_equal; [now apply SH|]. apply IH; auto. }
  assert (H2 : Forall2 (fun sample W => exists cp, conv sample = Ok cp /\ weights_are prob' L cp W /\ usable_weights N K W) samples' Ws').
  { assert (FU : Forall (usable_weights N K) Ws'). { unfold Ws'. apply Forall_map. apply Forall_forall. intros [x W] I. cbn [fst snd]. rewrite Forall_forall in PC, F. apply SC; [apply PC; exact (in_combine_l _ _ _ _ I)|apply F; exact (in_combine_r _ _ _ _ I)]. }
    clear -H' FU. clearbody Ws'. revert FU. induction H' as [|s W ss Vs (cp & A & B) H' IH]; intros FU; constructor; inversion FU; subst; eauto. }
  assert (NE' : samples' <> []).
  { intros E. assert (Z := Forall2_len _ _ _ H2). rewrite E in Z. unfold Ws' in Z. rewrite map_length, combine_length, LC, Nat.min_id in Z. assert (Z' := Forall2_len _ _ _ H). destruct samples; [congruence|]. simpl in Z, Z'. lia. }
  rewrite (ppr_eq bk prob' conv choose L samples' Ws' NE' H2), (ppr_eq bk prob conv choose L samples Ws NE H).
  f_equal. f_equal; [|apply tab_ext; intros; apply PW]. apply map_ext. intros [k m]. cbn [fst snd]. f_equal. apply map_ext. intros i. do 2 f_equal. apply map_ext. intros j. now rewrite PW.
Qed.

