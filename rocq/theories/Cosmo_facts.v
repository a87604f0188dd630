(** Lemmas about the detector-to-source conversion. *)
From Coq Require Import Reals Lra Lia String Bool Permutation.
From Coq Require Import List.
From Verif Require Import Xf Py Xf_facts Py_facts Np Cosmo_model Redshift_model SpecCosmo.
Import ListNotations.
Local Open Scope string_scope.

(** ** Strings *)
Lemma len_app (a b : string) : String.length (a ++ b) = (String.length a + String.length b)%nat.
Proof. induction a; simpl; auto. Qed.
Lemma sub_all (a : string) : substring 0 (String.length a) a = a.
Proof. induction a; simpl; congruence. Qed.
Lemma sub_prefix (a b : string) : substring 0 (String.length a) (a ++ b) = a.
Proof. induction a; simpl; [destruct b; reflexivity|congruence]. Qed.
Lemma sub_suffix (a b : string) : substring (String.length a) (String.length b) (a ++ b) = b.
Proof. induction a; simpl; [apply sub_all|auto]. Qed.
Lemma sub_split (s : string) n : (n <= String.length s)%nat -> s = substring 0 n s ++ substring n (String.length s - n) s.
Proof.
  revert n; induction s as [|c s IH]; intros [|n] H; simpl in *; auto; try lia.
  - f_equal. symmetry. apply sub_all.
  - f_equal. apply IH. lia.
Qed.
Lemma det_ends p : endswith "_detector" (detector p) = true.
Proof.
  unfold endswith, detector. rewrite len_app. replace (String.length p + String.length "_detector" - String.length "_detector")%nat with (String.length p) by lia.
  rewrite sub_suffix, String.eqb_refl, Bool.andb_true_r. apply Nat.leb_le. lia.
Qed.
Lemma det_drop p : drop_last 9 (detector p) = p.
Proof. unfold drop_last, detector. rewrite len_app. replace (String.length p + String.length "_detector" - 9)%nat with (String.length p) by (simpl; lia). apply sub_prefix. Qed.
Lemma ends_det k : endswith "_detector" k = true -> k = detector (drop_last 9 k).
Proof.
  unfold endswith. intros H. apply andb_true_iff in H. destruct H as [H1 H2]. apply Nat.leb_le in H1. apply String.eqb_eq in H2.
  unfold detector, drop_last. rewrite (sub_split k (String.length k - 9)) at 1 by lia. f_equal.
  replace (String.length k - (String.length k - 9))%nat with 9%nat by (simpl in H1; lia). exact H2.
Qed.
Lemma det_inj p q : detector p = detector q -> p = q.
Proof. intros H. rewrite <- (det_drop p), <- (det_drop q). now rewrite H. Qed.
Lemma ends_false k : endswith "_detector" k = false <-> (forall p, k <> detector p).
Proof.
  split.
  - intros H p ->. rewrite det_ends in H. discriminate.
  - intros H. destruct (endswith "_detector" k) eqn:E; auto. apply ends_det in E. now apply H in E.
Qed.

(** ** Assignments made by the loop *)
Definition assign (z : list xf) (kc : string * list xf) : list (string * list xf) :=
  if endswith "_detector" (fst kc) then [(drop_last 9 (fst kc), over_one_plus (snd kc) z)]
  else if String.eqb (fst kc) "luminosity_distance" then [] else [kc].
Definition dupdate {V} (l : list (string * V)) (s : dict V) : dict V := fold_left (fun s kv => dset (fst kv) (snd kv) s) l s.
Definition ndet {V} (data : dict V) : nat := List.length (filter (fun kc => endswith "_detector" (fst kc)) data).

Lemma dupdate_app {V} l1 l2 (s : dict V) : dupdate (l1 ++ l2) s = dupdate l2 (dupdate l1 s).
Proof. apply fold_left_app. Qed.
Lemma dupdate_other {V} k l (s : dict V) : ~ In k (map fst l) -> dget k (dupdate l s) = dget k s.
Proof.
  revert s; induction l as [|[k1 v1] l IH]; intros s H; [reflexivity|]. cbn [dupdate fold_left fst snd] in *. simpl in H.
  unfold dupdate in IH. rewrite IH by tauto. apply dget_dset_other. intros ->. tauto.
Qed.
Lemma dupdate_in {V} k v l (s : dict V) : NoDup (map fst l) -> In (k, v) l -> dget k (dupdate l s) = Some v.
Proof.
  revert s; induction l as [|[k1 v1] l IH]; intros s N H; [destruct H|]. simpl in N. inversion N as [|? ? N1 N2]; subst.
  change (dupdate ((k1, v1) :: l) s) with (dupdate l (dset k1 v1 s)). destruct H as [H|H].
  - injection H as -> ->. rewrite dupdate_other by auto. apply dget_dset_same.
  - apply IH; auto.
Qed.
Lemma dupdate_keys {V} k l (s : dict V) : In k (dkeys (dupdate l s)) <-> In k (map fst l) \/ In k (dkeys s).
Proof.
  revert s; induction l as [|[k1 v1] l IH]; intros s; [simpl; tauto|]. change (dupdate ((k1, v1) :: l) s) with (dupdate l (dset k1 v1 s)).
  rewrite IH, dkeys_dset_incl. simpl. intuition.
Qed.

Lemma zip_over col z : zipWith fdiv col (map (fadd (Fin 1)) z) = over_one_plus col z.
Proof.
  unfold zipWith, over_one_plus. revert z; induction col as [|c col IH]; intros [|z0 z]; simpl; auto. f_equal. apply IH.
Qed.
Lemma bcast_same {A B C} bk (f : A -> B -> C) a b : List.length a = List.length b -> bcast bk f a b = Ok (zipWith f a b).
Proof. intros H. unfold bcast, bcast2. now rewrite H, Nat.eqb_refl. Qed.
Lemma bcast_into_same {A B} bk (f : A -> B -> A) a b : List.length a = List.length b -> bcast_into bk f a b = Ok (zipWith f a b).
Proof. intros H. unfold bcast_into. rewrite bcast_same by auto. rewrite H, Nat.eqb_refl. now destruct (is_jax bk). Qed.
Lemma times_S k x f : times (S k) x f = fmul (times k x f) f. Proof. reflexivity. Qed.
Lemma times_add j k x f : times (j + k) x f = times j (times k x f) f.
Proof. induction j; simpl; congruence. Qed.

Section Loop.
  Context (bk : backend) (z : list xf).
  Let jacs (k : nat) (j : list xf) := zipWith (fun j f => times k j (fadd (Fin 1) f)) j z.
  Lemma jacs_0 j : List.length j = List.length z -> jacs 0 j = j.
  Proof.
    unfold jacs, zipWith. simpl. generalize z. induction j as [|a j IH]; intros [|b z'] H; simpl in *; try discriminate; auto. f_equal. apply IH. lia.
  Qed.
  Lemma jacs_step k j : List.length j = List.length z -> jacs k (zipWith fmul j (map (fadd (Fin 1)) z)) = jacs (S k) j.
  Proof.
    unfold jacs, zipWith. generalize z. induction j as [|a j IH]; intros [|b z'] H; simpl in *; try discriminate; auto. f_equal; [|apply IH; lia].
    rewrite <- times_S. replace (S k) with (k + 1)%nat by lia. now rewrite times_add.
  Qed.
  Lemma zip_len {A B C} (f : A -> B -> C) a b : List.length a = List.length b -> List.length (zipWith f a b) = List.length b.
  Proof. intros H. unfold zipWith. rewrite map_length, combine_length. lia. Qed.
  (** The whole loop, when [samples["redshift"]] is [z] at the start and no key assigns "redshift". *)
  Lemma loop rest samples j :
    dget "redshift" samples = Some z -> List.length j = List.length z ->
    (forall k col, In (k, col) rest -> List.length col = List.length z /\ k <> "redshift" /\ k <> detector "redshift") ->
    convert_keys bk rest (samples, j) = Ok (dupdate (flat_map (assign z) rest) samples, jacs (ndet rest) j).
  Proof.
    revert samples j; induction rest as [|[k col] rest IH]; intros samples j Hz Lj H.
    - simpl. now rewrite jacs_0.
    - destruct (H k col (or_introl eq_refl)) as (Lc & N1 & N2).
      cbn [convert_keys convert_key flat_map]. unfold assign at 1. unfold ndet. cbn [filter fst snd]. destruct (endswith "_detector" k) eqn:E.
      + assert (N3 : drop_last 9 k <> "redshift") by (intros X; apply ends_det in E; rewrite X in E; auto).
        rewrite (dlookup_ok _ _ _ Hz). cbn [bind]. rewrite bcast_same by (rewrite map_length; congruence). cbn [bind]. rewrite zip_over. cbv zeta.
        assert (Hz' : dget "redshift" (dset (drop_last 9 k) (over_one_plus col z) samples) = Some z) by (rewrite dget_dset_other; auto).
        rewrite (dlookup_ok _ _ _ Hz'). cbn [bind]. rewrite bcast_into_same by (rewrite map_length; auto). cbn [bind].
        rewrite IH; auto; [|rewrite zip_len, ?map_length; rewrite ?map_length; auto|intros; apply H; simpl; auto].
        rewrite jacs_step by auto. reflexivity.
      + destruct (String.eqb k "luminosity_distance") eqn:E2; cbn [negb bind].
        * rewrite IH; auto. intros; apply H; simpl; auto.
        * assert (Hz2 : dget "redshift" (dset k col samples) = Some z) by (rewrite dget_dset_other; auto).
          rewrite (IH (dset k col samples) j Hz2 Lj) by (intros; apply H; simpl; auto). reflexivity.
  Qed.
End Loop.

Lemma assign_keys z data k : In k (map fst (flat_map (assign z) data)) <->
  In (detector k) (dkeys data) \/ (In k (dkeys data) /\ k <> "luminosity_distance" /\ forall p, k <> detector p).
Proof.
  unfold dkeys. induction data as [|[k1 c1] data IH]; [simpl; tauto|]. cbn [flat_map map fst]. rewrite map_app, in_app_iff, IH. clear IH.
  unfold assign. cbn [fst snd]. destruct (endswith "_detector" k1) eqn:E.
  - cbn [map fst]. assert (E' := ends_det _ E). split.
    + intros [[H|[]]|H]; [left; left; congruence|]. destruct H as [H|H]; [left; right; auto|right; split; [right; tauto|tauto]].
    + intros [[H|H]|[[H|H] [H2 H3]]]; [|right; left; auto| |right; right; auto].
      * left; left. rewrite H. apply det_drop.
      * exfalso. apply (H3 (drop_last 9 k1)). congruence.
  - assert (E' := proj1 (ends_false _) E). destruct (String.eqb_spec k1 "luminosity_distance") as [->|N]; cbn [map fst].
    + split.
      * intros [[]|[H|H]]; [left; right; auto|right; split; [right; tauto|tauto]].
      * intros [[H|H]|[[H|H] [H2 H3]]]; try (right; tauto); [now apply E' in H|congruence].
    + split.
      * intros [[H|[]]|[H|H]]; [right; subst; split; [left; reflexivity|auto]|left; right; auto|right; split; [right; tauto|tauto]].
      * intros [[H|H]|[[H|H] [H2 H3]]]; try (right; tauto); [now apply E' in H|left; left; auto].
Qed.
Lemma assign_nodup z (data : dict (list xf)) : dwf data -> (forall p, In (detector p) (dkeys data) -> ~ In p (dkeys data)) ->
  NoDup (map fst (flat_map (assign z) data)).
Proof.
  unfold dwf, dkeys. induction data as [|[k1 c1] data IH]; intros W C; [constructor|]. cbn [flat_map map fst] in *. inversion W as [|? ? W1 W2]; subst.
  assert (IH' : NoDup (map fst (flat_map (assign z) data))). { apply IH; auto. intros p Hp Hq. apply (C p); simpl; auto. } clear IH.
  rewrite map_app. unfold assign at 1. cbn [fst snd]. destruct (endswith "_detector" k1) eqn:E.
  - cbn [map fst app]. constructor; auto. rewrite assign_keys. assert (E' := ends_det _ E). rewrite <- E'. intros [H|[H _]]; [now apply W1|].
    apply (C (drop_last 9 k1)); [left; congruence|right; auto].
  - assert (E' := proj1 (ends_false _) E). destruct (String.eqb_spec k1 "luminosity_distance") as [->|N]; cbn [map fst app]; auto.
    constructor; auto. rewrite assign_keys. intros [H|[H _]]; [|now apply W1]. apply (C k1); [right; auto|left; auto].
Qed.
Lemma assign_det z data p col : In (detector p, col) data -> In (p, over_one_plus col z) (flat_map (assign z) data).
Proof. intros H. apply in_flat_map. exists (detector p, col). split; auto. unfold assign. cbn [fst snd]. rewrite det_ends, det_drop. simpl; auto. Qed.
Lemma assign_pass z data k col : In (k, col) data -> k <> "luminosity_distance" -> (forall p, k <> detector p) -> In (k, col) (flat_map (assign z) data).
Proof.
  intros H N E. apply in_flat_map. exists (k, col). split; auto. unfold assign. cbn [fst snd]. apply ends_false in E. rewrite E.
  destruct (String.eqb_spec k "luminosity_distance"); [congruence|simpl; auto].
Qed.
Lemma ndet_masses {V} (data : dict V) masses : dwf data -> NoDup masses -> (forall p, In p masses <-> In (detector p) (dkeys data)) ->
  ndet data = List.length masses.
Proof.
  intros W N H. unfold ndet. rewrite <- (map_length fst), <- (map_length detector masses).
  apply Permutation_length, NoDup_Permutation.
  - unfold dwf, dkeys in W. clear - W. induction data as [|a data IH]; [constructor|]. simpl in W. inversion W; subst. simpl.
    destruct (endswith "_detector" (fst a)); simpl; auto. constructor; auto. intros X. apply H1. apply in_map_iff in X. destruct X as [b [<- Hb]].
    apply filter_In in Hb. apply in_map. tauto.
  - apply FinFun.Injective_map_NoDup; auto. intros p q; apply det_inj.
  - intros k. split.
    + intros X. apply in_map_iff in X. destruct X as [[k' c] [<- Hb]]. apply filter_In in Hb. destruct Hb as [Hb E]. cbn [fst] in *. apply ends_det in E.
      rewrite E. apply in_map. apply H. rewrite <- E. unfold dkeys. change k' with (fst (k', c)). now apply in_map.
    + intros X. apply in_map_iff in X. destruct X as [p [<- Hp]]. apply H in Hp. unfold dkeys in Hp. apply in_map_iff in Hp. destruct Hp as [[k c] [E Hp]].
      cbn [fst] in E. apply in_map_iff. exists (k, c). split; auto. apply filter_In. split; auto. cbn [fst]. rewrite E. apply det_ends.
Qed.
