(** Lemmas about dictionaries and results. *)
From Coq Require Import List String Bool Permutation.
From Verif Require Import Py.
Import ListNotations.

Section Dict.
  Context {V : Type}.
  Implicit Types (d : dict V).
  Lemma dget_dset_same k v d : dget k (dset k v d) = Some v.
  Proof.
    induction d as [|[k' v'] d IH]; simpl; [now rewrite String.eqb_refl|].
    destruct (String.eqb k k') eqn:E; simpl; rewrite E; auto.
  Qed.
  Lemma dget_dset_other k k' v d : k <> k' -> dget k (dset k' v d) = dget k d.
  Proof.
    intros H; induction d as [|[k2 v2] d IH]; simpl.
    - now destruct (String.eqb_spec k k').
    - destruct (String.eqb_spec k' k2); simpl; destruct (String.eqb_spec k k2); subst; auto; congruence.
  Qed.
  Lemma dget_ddel_other k k' d : k <> k' -> dget k (ddel k' d) = dget k d.
  Proof.
    intros H; induction d as [|[k2 v2] d IH]; simpl; auto.
    destruct (String.eqb_spec k' k2); simpl; destruct (String.eqb_spec k k2); subst; auto; congruence.
  Qed.
  Lemma dget_In k v d : dget k d = Some v -> In (k, v) d.
  Proof.
    induction d as [|[k2 v2] d IH]; simpl; [discriminate|].
    destruct (String.eqb_spec k k2); [intros [= ->]; subst; auto|auto].
  Qed.
  Lemma dget_None_keys k d : dget k d = None <-> ~ In k (dkeys d).
  Proof.
    induction d as [|[k2 v2] d IH]; simpl; [intuition congruence|].
    destruct (String.eqb_spec k k2) as [->|Hn]; [intuition congruence|].
    rewrite IH; split; [intros H [E|E]; congruence || tauto|tauto].
  Qed.
  Lemma dmem_In k d : dmem k d = true <-> In k (dkeys d).
  Proof.
    unfold dmem; destruct (dget k d) eqn:E.
    - split; auto; intros _. apply dget_In in E. unfold dkeys; apply (in_map fst) in E; auto.
    - split; [discriminate|]. intros H; apply dget_None_keys in E; tauto.
  Qed.
  Lemma dmem_false k d : dmem k d = false <-> dget k d = None.
  Proof. unfold dmem; destruct (dget k d); split; congruence. Qed.
  Lemma dget_wf_In k v d : dwf d -> In (k, v) d -> dget k d = Some v.
  Proof.
    unfold dwf; induction d as [|[k2 v2] d IH]; simpl; [tauto|].
    intros Hnd [E|HIn].
    - inversion E; subst; now rewrite String.eqb_refl.
    - inversion Hnd as [|? ? Hn Hd]; subst.
      destruct (String.eqb_spec k k2) as [->|]; auto.
      exfalso; apply Hn. apply (in_map fst) in HIn; exact HIn.
  Qed.
  Lemma dkeys_dset_mem k v d : In k (dkeys d) -> dkeys (dset k v d) = dkeys d.
  Proof.
    induction d as [|[k2 v2] d IH]; simpl; [tauto|].
    destruct (String.eqb_spec k k2); simpl; auto.
    intros [E|E]; [congruence|]. now rewrite IH.
  Qed.
  Lemma dkeys_dset_new k v d : ~ In k (dkeys d) -> dkeys (dset k v d) = dkeys d ++ [k].
  Proof.
    induction d as [|[k2 v2] d IH]; simpl; auto.
    destruct (String.eqb_spec k k2); simpl; [intros H; exfalso; apply H; auto|].
    intros H; rewrite IH; tauto.
  Qed.
  Lemma dkeys_dset_incl k v d k' : In k' (dkeys (dset k v d)) <-> k' = k \/ In k' (dkeys d).
  Proof.
    destruct (in_dec string_dec k (dkeys d)) as [H|H].
    - rewrite dkeys_dset_mem by auto. split; [auto|]. intros [->|?]; auto.
    - rewrite dkeys_dset_new by auto. rewrite in_app_iff; simpl. intuition congruence.
  Qed.
  Lemma dwf_dset k v d : dwf d -> dwf (dset k v d).
  Proof.
    unfold dwf; intros Hd; destruct (in_dec string_dec k (dkeys d)) as [H|H].
    - now rewrite dkeys_dset_mem.
    - rewrite dkeys_dset_new by auto.
      apply Permutation_NoDup with (l := k :: dkeys d).
      + apply Permutation_cons_append.
      + constructor; auto.
  Qed.
  Lemma dkeys_ddel k d : forall x, In x (dkeys (ddel k d)) -> In x (dkeys d).
  Proof.
    induction d as [|[k2 v2] d IH]; simpl; auto.
    intros x; destruct (String.eqb_spec k k2); simpl; [auto|]. intros [?|?]; auto.
  Qed.
  Lemma dwf_ddel k d : dwf d -> dwf (ddel k d).
  Proof.
    unfold dwf; induction d as [|[k2 v2] d IH]; simpl; auto.
    intros H; inversion H as [|? ? Hn Hd]; subst.
    destruct (String.eqb_spec k k2); simpl; auto.
    constructor; auto. intros Hin; apply Hn; eapply dkeys_ddel; eauto.
  Qed.
  Lemma dget_ddel_same k d : dwf d -> dget k (ddel k d) = None.
  Proof.
    unfold dwf; induction d as [|[k2 v2] d IH]; simpl; auto.
    intros H; inversion H as [|? ? Hn Hd]; subst.
    destruct (String.eqb_spec k k2) as [->|Hne]; simpl.
    - apply dget_None_keys; auto.
    - destruct (String.eqb_spec k k2); [congruence|auto].
  Qed.
  Lemma dset_id k v d : dget k d = Some v -> dset k v d = d.
  Proof.
    induction d as [|[k2 v2] d IH]; simpl; [discriminate|].
    destruct (String.eqb_spec k k2); [intros [= ->]; auto|]. intros H; now rewrite IH.
  Qed.
  Lemma dlookup_ok k d v : dget k d = Some v -> dlookup k d = Ok v.
  Proof. unfold dlookup; now intros ->. Qed.
  Lemma dlookup_err k d : dget k d = None -> dlookup k d = Err (KeyError k).
  Proof. unfold dlookup; now intros ->. Qed.
End Dict.

Lemma dget_dmap {V W} (f : V -> W) k d :
  dget k (dmap f d) = option_map f (dget k d).
Proof. induction d as [|[k2 v2] d IH]; simpl; auto. destruct (String.eqb k k2); auto. Qed.

Lemma mapM_length {A B} (f : A -> result B) l bs : mapM f l = Ok bs -> List.length bs = List.length l.
Proof.
  revert bs; induction l as [|a l IH]; simpl; intros bs.
  - intros [= <-]; auto.
  - destruct (f a); simpl; [|discriminate]. destruct (mapM f l) eqn:E; simpl; [|discriminate].
    intros [= <-]; simpl; f_equal; auto.
Qed.
Lemma mapM_ok {A B} (f : A -> result B) (g : A -> B) l :
  (forall a, In a l -> f a = Ok (g a)) -> mapM f l = Ok (map g l).
Proof.
  induction l as [|a l IH]; simpl; auto. intros H. rewrite (H a) by auto. simpl.
  rewrite IH by auto. auto.
Qed.
