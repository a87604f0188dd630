(** Real-analysis lemmas shared by the proofs. *)
From Coq Require Import Reals Lra Lia Psatz.
From Coquelicot Require Import Coquelicot.
Local Open Scope R_scope.

(** Restate an equation between elements of a Coquelicot structure over R at type R. *)
Ltac eqR := match goal with |- ?x = ?y => change (@eq R x y) end.

Lemma is_derive_Rpower x p : 0 < x -> is_derive (fun t => Rpower t p) x (p * Rpower x (p - 1)).
Proof. intros H. apply is_derive_Reals. now apply derivable_pt_lim_power. Qed.

Lemma continuous_Rpower x p : 0 < x -> continuous (fun t => Rpower t p) x.
Proof.
  intros H. apply (ex_derive_continuous (fun t => Rpower t p)).
  eexists; now apply is_derive_Rpower.
Qed.

Lemma Rpower_pos x p : 0 < Rpower x p.
Proof. apply exp_pos. Qed.

Lemma Rpower_neq0 x p : Rpower x p <> 0.
Proof. apply Rgt_not_eq, Rpower_pos. Qed.

Lemma Rpower_1p x p : 0 < x -> Rpower x (1 + p) = x * Rpower x p.
Proof. intros; rewrite Rpower_plus, Rpower_1; auto. Qed.

Lemma Rpower_div x y p : 0 < x -> 0 < y -> Rpower (x / y) p = Rpower x p / Rpower y p.
Proof.
  intros; unfold Rpower. rewrite ln_div by auto.
  rewrite Rmult_minus_distr_l. unfold Rminus. rewrite exp_plus, exp_Ropp; reflexivity.
Qed.

Lemma Rpower_strict_incr x y p : 0 < x < y -> 0 < p -> Rpower x p < Rpower y p.
Proof.
  intros [Hx Hy] Hp. unfold Rpower. apply exp_increasing, Rmult_lt_compat_l; auto.
  apply ln_increasing; auto.
Qed.
Lemma Rpower_strict_decr x y p : 0 < x < y -> p < 0 -> Rpower y p < Rpower x p.
Proof.
  intros [Hx Hy] Hp. unfold Rpower. apply exp_increasing.
  assert (ln x < ln y) by (apply ln_increasing; auto). nra.
Qed.

(** FTC in the form used everywhere. *)
Lemma is_RInt_FTC (F f : R -> R) a b :
  (forall x, Rmin a b <= x <= Rmax a b -> is_derive F x (f x)) ->
  (forall x, Rmin a b <= x <= Rmax a b -> continuous f x) ->
  is_RInt f a b (F b - F a).
Proof. intros HF Hf. exact (is_RInt_derive F f a b HF Hf). Qed.

Lemma Rmin_pos a b : 0 < a -> 0 < b -> 0 < Rmin a b.
Proof. intros; apply Rmin_glb_lt; auto. Qed.

(** Integral of a power. *)
Lemma is_RInt_Rpower p a b : p <> -1 -> 0 < a -> 0 < b ->
  is_RInt (fun x => Rpower x p) a b ((Rpower b (1 + p) - Rpower a (1 + p)) / (1 + p)).
Proof.
  intros Hp Ha Hb.
  assert (Hm := Rmin_pos _ _ Ha Hb).
  replace ((Rpower b (1 + p) - Rpower a (1 + p)) / (1 + p))
    with (/ (1 + p) * Rpower b (1 + p) - / (1 + p) * Rpower a (1 + p)) by (field; lra).
  apply (is_RInt_FTC (fun x => / (1 + p) * Rpower x (1 + p))).
  - intros x Hx. evar_last.
    apply is_derive_scal. apply is_derive_Rpower; lra.
    replace (1 + p - 1) with p by ring. field; lra.
  - intros x Hx. apply continuous_Rpower; lra.
Qed.

Lemma is_RInt_Rpower_m1 a b : 0 < a -> 0 < b ->
  is_RInt (fun x => Rpower x (-1)) a b (ln b - ln a).
Proof.
  intros Ha Hb. assert (Hm := Rmin_pos _ _ Ha Hb).
  apply (is_RInt_FTC ln).
  - intros x Hx. evar_last. apply is_derive_ln; lra.
    replace (-1) with (-(1)) by ring.
    rewrite Rpower_Ropp, Rpower_1 by lra. reflexivity.
  - intros x Hx. apply continuous_Rpower; lra.
Qed.

Lemma is_RInt_scal_r (f : R -> R) a b l c :
  is_RInt f a b l -> is_RInt (fun x => f x * c) a b (l * c).
Proof.
  intros H. apply (is_RInt_ext (fun x => scal c (f x))).
  - intros; unfold scal; simpl; unfold mult; simpl; ring.
  - replace (l * c) with (scal c l) by (unfold scal; simpl; unfold mult; simpl; ring).
    now apply @is_RInt_scal.
Qed.

Lemma is_RInt_ext_le (f g : R -> R) a b l : a <= b ->
  (forall x, a < x < b -> f x = g x) -> is_RInt f a b l -> is_RInt g a b l.
Proof.
  intros Hab H. apply is_RInt_ext. rewrite Rmin_left, Rmax_right by auto. auto.
Qed.

Lemma is_RInt_zero a b : is_RInt (fun _ : R => 0) a b 0.
Proof.
  evar_last. apply (is_RInt_const a b (0 : R)).
  unfold scal; simpl; unfold mult; simpl; ring.
Qed.

Lemma is_RInt_plusR (f g : R -> R) a b lf lg :
  is_RInt f a b lf -> is_RInt g a b lg -> is_RInt (fun x => f x + g x) a b (lf + lg).
Proof. intros; now apply (is_RInt_plus f g). Qed.

(** A function that is [f] on [lo,hi] and 0 elsewhere keeps its integral on a larger interval. *)
Lemma is_RInt_extend (f g : R -> R) lo hi a b l :
  a <= lo -> lo <= hi -> hi <= b ->
  (forall x, lo < x < hi -> g x = f x) ->
  (forall x, a <= x <= b -> x < lo \/ hi < x -> g x = 0) ->
  is_RInt f lo hi l -> is_RInt g a b l.
Proof.
  intros Ha Hl Hb Hin Hout Hf.
  replace l with (0 + (l + 0)) by ring.
  apply (is_RInt_Chasles g a lo b).
  - apply (is_RInt_ext_le (fun _ => 0)); auto; [|apply is_RInt_zero].
    intros x Hx; symmetry; apply Hout; lra.
  - apply (is_RInt_Chasles g lo hi b).
    + apply (is_RInt_ext_le f); auto. intros; symmetry; auto.
    + apply (is_RInt_ext_le (fun _ => 0)); auto; [|apply is_RInt_zero].
      intros x Hx; symmetry; apply Hout; lra.
Qed.
