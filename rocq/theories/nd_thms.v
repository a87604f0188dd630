(** Proofs of the property theorems stated in [Props_nd]. *)
From Coq Require Import Reals Lra List Bool Arith Lia.
From Verif Require Import Xf Py Np Special Utils_model Xf_facts Nd_model SpecNd.
Import ListNotations.

Lemma fits_refl s : fits s s.
Proof. induction s; cbn; auto. Qed.
Lemma fits_trans s t u : fits s t -> fits t u -> fits s u.
Proof.
  revert t u. induction s as [|n s IH]; intros [|m t] [|k u]; cbn; try tauto. intros [A B] [C D]. split; [|now apply (IH t u)].
  destruct A as [->| ->]; auto.
Qed.
Lemma fits_antisym s t : fits s t -> fits t s -> s = t.
Proof.
  revert t. induction s as [|n s IH]; intros [|m t]; cbn; try tauto. intros [A B] [C D]. f_equal; [lia|now apply IH].
Qed.
Lemma fits_length s t : fits s t -> List.length s <= List.length t.
Proof. revert t. induction s as [|n s IH]; intros [|m t]; cbn; try tauto; [lia|lia|]. intros [_ A]. apply IH in A. lia. Qed.
Lemma bcast_upper s t u : bcast s t = Some u -> fits s u /\ fits t u /\ forall w, fits s w -> fits t w -> fits u w.
Proof.
  revert t u. induction s as [|n s IH]; intros t u; cbn.
  - intros E. injection E as <-. split; [exact I|]. split; [apply fits_refl|]. auto.
  - destruct t as [|m t].
    + intros E. injection E as <-. split; [apply (fits_refl (n :: s))|]. split; [exact I|]. auto.
    + destruct (bcast s t) as [v|] eqn:B; [|discriminate]. destruct (IH t v B) as (F1 & F2 & F3).
      assert (Q : forall k, (n = k \/ n = 1) -> (m = k \/ m = 1) -> (forall j, (n = j \/ n = 1) -> (m = j \/ m = 1) -> (k = j \/ k = 1)) -> forall u, Some (k :: v) = Some u ->
        fits (n :: s) u /\ fits (m :: t) u /\ forall w, fits (n :: s) w -> fits (m :: t) w -> fits u w).
      { intros k K1 K2 K3 u' E. injection E as <-. split; [now split|]. split; [now split|]. intros [|j w]; cbn; [tauto|]. intros [A1 A2] [A3 A4]. split; auto. }
      destruct (Nat.eqb_spec n m) as [->|N1]; [apply Q; auto|]. destruct (Nat.eqb_spec n 1) as [->|N2]; [apply Q; auto|].
      destruct (Nat.eqb_spec m 1) as [->|N3]; [apply Q; auto|discriminate].
Qed.
Lemma bcast_exists s t w : fits s w -> fits t w -> exists u, bcast s t = Some u.
Proof.
  revert t w. induction s as [|n s IH]; intros t w; cbn; [eauto|]. destruct t as [|m t]; [eauto|]. destruct w as [|k w]; [tauto|].
  intros [A1 A2] [A3 A4]. destruct (IH t w A2 A4) as [u E]. rewrite E.
  destruct (Nat.eqb_spec n m); [eauto|]. destruct (Nat.eqb_spec n 1); [eauto|]. destruct (Nat.eqb_spec m 1); [eauto|]. exfalso. lia.
Qed.
Lemma bcast_fits s t : fits t s -> bcast s t = Some s.
Proof.
  intros F. destruct (bcast_exists s t s (fits_refl s) F) as [u E]. rewrite E. destruct (bcast_upper s t u E) as (A & B & C). f_equal.
  apply fits_antisym; [|exact A]. apply C; [apply fits_refl|exact F].
Qed.
Lemma own_bidx s i : own s i = bidx s i.
Proof. revert i. induction s as [|[|[|n]] s IH]; intros [|j i]; cbn; try reflexivity; now rewrite IH. Qed.
Lemma bidx_bidx s u i : fits s u -> List.length u <= List.length i -> bidx s (bidx u i) = bidx s i.
Proof.
  revert u i. induction s as [|n s IH]; intros [|m u] [|j i]; cbn; try tauto; try lia. intros [A B] L. rewrite (IH u i B) by lia. f_equal.
  destruct (Nat.eqb_spec n 1); [reflexivity|]. destruct (Nat.eqb_spec m 1); [lia|reflexivity].
Qed.
Lemma bidx_inside s i : inside s i -> bidx s i = i.
Proof. intros H. induction H as [|j n i s L H IH]; [reflexivity|]. cbn. rewrite IH. f_equal. destruct (Nat.eqb_spec n 1); lia. Qed.
Lemma inside_length s i : inside s i -> List.length s <= List.length i.
Proof. intros H. induction H; cbn; lia. Qed.
Lemma bidx_length s i : List.length s <= List.length i -> List.length (bidx s i) = List.length s.
Proof. revert i. induction s as [|n s IH]; intros [|j i]; cbn; try lia. intros L. rewrite IH; lia. Qed.

(** [r] is the array of the common shape of [S], which is below [w], with entries [f]. *)
Definition comp {A} (w : list nat) (r : nd A) (S : list (list nat)) (f : list nat -> A) : Prop :=
  common S (nd_shape r) /\ (forall u, In u S -> fits u w) /\ forall i, List.length (nd_shape r) <= List.length i -> nd_at r (bidx (nd_shape r) i) = f i.
Lemma comp_arg w (a : nd xf) : fits (nd_shape a) w -> comp w a [nd_shape a] (entry a).
Proof.
  intros F. split; [|split].
  - split; [intros u [<-|[]]; apply fits_refl|]. intros t H. apply H. now left.
  - now intros u [<-|[]].
  - intros i _. unfold entry. now rewrite own_bidx.
Qed.
Lemma comp_map {A B} w (a : nd A) S f (g : A -> B) : comp w a S f -> comp w (nmap g a) S (fun i => g (f i)).
Proof. intros (C & F & V). split; [exact C|]. split; [exact F|]. intros i L. cbn. f_equal. now apply V. Qed.
Lemma comp_asarray {A} w (a : nd A) S f : comp w a S f -> comp w (asarray a) S f.
Proof. exact (fun H => H). Qed.
Lemma common_union S1 S2 s t u : common S1 s -> common S2 t -> bcast s t = Some u -> common (S1 ++ S2) u.
Proof.
  intros [A1 A2] [B1 B2] E. destruct (bcast_upper s t u E) as (F1 & F2 & F3). split.
  - intros v I. apply in_app_or in I as [I|I]; [apply fits_trans with s; auto|apply fits_trans with t; auto].
  - intros v H. apply F3; [apply A2|apply B2]; intros x I; apply H; apply in_or_app; auto.
Qed.
Lemma comp_below {A} w (a : nd A) S f : comp w a S f -> fits (nd_shape a) w.
Proof. intros ([_ C] & F & _). now apply C. Qed.
Lemma comp_map2 {A B C} bk w py int (g : A -> B -> C) a b S1 S2 f1 f2 : comp w a S1 f1 -> comp w b S2 f2 ->
  exists r, nmap2 bk py int g a b = Ok r /\ nd_py r = py /\ nd_int r = int /\ comp w r (S1 ++ S2) (fun i => g (f1 i) (f2 i)).
Proof.
  intros Ha Hb. destruct (bcast_exists _ _ w (comp_below _ _ _ _ Ha) (comp_below _ _ _ _ Hb)) as [u E].
  destruct (bcast_upper _ _ _ E) as (F1 & F2 & _). unfold nmap2. rewrite E. eexists. split; [reflexivity|]. split; [reflexivity|]. split; [reflexivity|].
  destruct Ha as (C1 & B1 & V1), Hb as (C2 & B2 & V2). split; [|split].
  - cbn. eapply common_union; eassumption.
  - intros v I. apply in_app_or in I as [I|I]; auto.
  - cbn. intros i L. rewrite !bidx_bidx by assumption. apply fits_length in F1. apply fits_length in F2. rewrite V1, V2 by lia. reflexivity.
Qed.
Lemma comp_sets {A} w (r : nd A) S S' f : comp w r S f -> incl S S' -> incl S' S -> comp w r S' f.
Proof.
  intros ([C1 C2] & F & V) I1 I2. split; [split; [intros u B; apply C1; auto|intros t H; apply C2; auto]|]. split; auto.
Qed.
Lemma comp_ext {A} w (r : nd A) S f g : comp w r S f -> (forall i, f i = g i) -> comp w r S g.
Proof. intros (C & F & V) E. split; [exact C|]. split; [exact F|]. intros i L. rewrite <- E. now apply V. Qed.
Lemma comp_fits {A B} w (a : nd A) (b : nd B) S1 S2 f1 f2 : comp w a S1 f1 -> comp w b S2 f2 -> (forall u, In u S2 -> fits u (nd_shape a)) -> fits (nd_shape b) (nd_shape a).
Proof. intros _ ([_ C] & _) H. now apply C. Qed.
Lemma comp_in {A} w (a : nd A) S f u : comp w a S f -> In u S -> fits u (nd_shape a).
Proof. intros ([C _] & _). apply C. Qed.
Lemma comp_iop {B} bk w int (g : xf -> B -> xf) a b S1 S2 f1 f2 : comp w a S1 f1 -> comp w b S2 f2 ->
  (rebinds bk a = true \/ ((forall u, In u S2 -> fits u (nd_shape a)) /\ (nd_int a = false \/ int = true))) ->
  exists r, iop bk int g a b = Ok r /\ nd_int r = nd_int a && int /\ comp w r (S1 ++ S2) (fun i => g (f1 i) (f2 i)).
Proof.
  intros Ha Hb H. unfold iop. destruct (rebinds bk a) eqn:R.
  - destruct (comp_map2 bk w false (nd_int a && int) g a b S1 S2 f1 f2 Ha Hb) as (r & E & _ & J & D). exists r. auto.
  - destruct H as [H|[H1 H2]]; [discriminate|]. replace (nd_int a && negb int) with false by (destruct H2 as [->| ->], (nd_int a); reflexivity).
    destruct (comp_map2 bk w false (nd_int a) g a b S1 S2 f1 f2 Ha Hb) as (r & E & _ & J & D). rewrite E. cbn [bind].
    assert (Q : nd_shape r = nd_shape a).
    { unfold nmap2 in E. rewrite bcast_fits in E by (eapply comp_fits; eassumption). injection E as <-. reflexivity. }
    destruct (list_eq_dec Nat.eq_dec (nd_shape r) (nd_shape a)) as [_|N]; [|contradiction]. exists r. split; [reflexivity|]. split; [|exact D].
    rewrite J. destruct H2 as [->| ->], (nd_int a); reflexivity.
Qed.
Lemma comp_op bk w g (a b : nd xf) S1 S2 f1 f2 : comp w a S1 f1 -> comp w b S2 f2 ->
  exists r, nop bk g a b = Ok r /\ nd_py r = nd_py a && nd_py b /\ nd_int r = nd_int a && nd_int b /\ comp w r (S1 ++ S2) (fun i => g (f1 i) (f2 i)).
Proof. apply comp_map2. Qed.
Lemma comp_divide bk w (a b : nd xf) S1 S2 f1 f2 : comp w a S1 f1 -> comp w b S2 f2 -> nd_py a && nd_py b && feq (nd_at b []) (Fin 0) = false ->
  exists r, ndivide bk a b = Ok r /\ nd_py r = nd_py a && nd_py b /\ nd_int r = false /\ comp w r (S1 ++ S2) (fun i => fdiv (f1 i) (f2 i)).
Proof. intros Ha Hb H. unfold ndivide. rewrite H. now apply comp_map2. Qed.
Lemma comp_power bk w (a b : nd xf) S1 S2 f1 f2 : comp w a S1 f1 -> comp w b S2 f2 -> nd_int a && nd_int b = false ->
  exists r, npower bk a b = Ok r /\ nd_py r = false /\ nd_int r = false /\ comp w r (S1 ++ S2) (fun i => fpow (f1 i) (f2 i)).
Proof.
  intros Ha Hb H. unfold npower. rewrite H. destruct (comp_map2 bk w false false fpow a b S1 S2 f1 f2 Ha Hb) as (r & E & P & J & D). rewrite E. cbn. eauto.
Qed.
Lemma comp_pow bk w (a b : nd xf) S1 S2 f1 f2 : comp w a S1 f1 -> comp w b S2 f2 ->
  (nd_py a = true -> nd_at a [] <> Fin 0) -> nd_int a && nd_int b = false \/ (nd_py a = true /\ nd_py b = true) ->
  exists r, npow bk a b = Ok r /\ nd_py r = nd_py a && nd_py b /\ comp w r (S1 ++ S2) (fun i => fpow (f1 i) (f2 i)).
Proof.
  intros Ha Hb Z H. unfold npow. destruct (nd_py a && nd_py b) eqn:P.
  - apply andb_true_iff in P as [P1 P2]. specialize (Z P1).
    replace (feq (nd_at a []) (Fin 0)) with false.
    + cbn [andb]. destruct (comp_map2 bk w true (nd_int a && nd_int b && negb (flt (nd_at b []) (Fin 0))) fpow a b S1 S2 f1 f2 Ha Hb) as (r & E & Q & _ & D). exists r. rewrite E, Q. auto.
    + symmetry. destruct (nd_at a []) as [x| | |]; try reflexivity. cbn. unfold Reqb. destruct (Req_EM_T x 0) as [->|]; [now destruct Z|reflexivity].
  - destruct H as [H|[P1 P2]]; [|rewrite P1, P2 in P; discriminate].
    destruct (comp_power bk w a b S1 S2 f1 f2 Ha Hb H) as (r & E & Q & _ & D). exists r. rewrite E, Q. auto.
Qed.
Lemma comp_gives w r (args : list (nd xf)) S f : comp w r S f -> incl S (map nd_shape args) -> incl (map nd_shape args) S -> gives (Ok r) args f.
Proof.
  intros C I1 I2. apply (comp_sets _ _ _ _ _ C I1) in I2. destruct I2 as (D & _ & V). exists r. split; [reflexivity|]. split; [exact D|].
  intros i L. rewrite <- (V i) by now apply inside_length. f_equal. symmetry. now apply bidx_inside.
Qed.
Lemma comp_py w (a : nd xf) : nd_shape a = [] -> comp w a [] (fun _ => nd_at a []).
Proof.
  intros E. unfold comp. rewrite E. split; [split; [intros ? []|reflexivity]|]. split; [intros ? []|]. now intros [|j i] _.
Qed.
Lemma bind_ok {A B} (m : result A) (f : A -> result B) y : bind m f = Ok y -> exists x, m = Ok x /\ f x = Ok y.
Proof. destruct m; cbn; [eauto|discriminate]. Qed.
Lemma map2_ok {A B C} bk py int (g : A -> B -> C) a b r : nmap2 bk py int g a b = Ok r -> fits (nd_shape a) (nd_shape r) /\ fits (nd_shape b) (nd_shape r) /\
  (forall w, fits (nd_shape a) w -> fits (nd_shape b) w -> fits (nd_shape r) w) /\ nd_int r = int.
Proof.
  unfold nmap2. destruct (bcast (nd_shape a) (nd_shape b)) as [u|] eqn:E; [|discriminate]. intros H. injection H as <-. cbn.
  destruct (bcast_upper _ _ _ E) as (A1 & A2 & A3). auto.
Qed.
Lemma divide_ok bk a b r : ndivide bk a b = Ok r -> fits (nd_shape a) (nd_shape r) /\ fits (nd_shape b) (nd_shape r).
Proof. unfold ndivide. destruct (nd_py a && nd_py b && feq (nd_at b []) (Fin 0)); [discriminate|]. intros H. apply map2_ok in H. tauto. Qed.
Lemma power_ok bk a b r : npower bk a b = Ok r -> fits (nd_shape a) (nd_shape r) /\ fits (nd_shape b) (nd_shape r) /\
  (forall w, fits (nd_shape a) w -> fits (nd_shape b) w -> fits (nd_shape r) w) /\ nd_int r = nd_int a && nd_int b.
Proof.
  unfold npower. intros H. apply bind_ok in H as (x & E & H). apply map2_ok in E. revert H. case (_ && existsb _ _); [discriminate|]. intros H. injection H as <-. exact E.
Qed.
Lemma where_ok bk c a b r : nwhere bk c a b = Ok r -> fits (nd_shape c) (nd_shape r) /\ fits (nd_shape a) (nd_shape r) /\ fits (nd_shape b) (nd_shape r).
Proof.
  unfold nwhere. intros H. apply bind_ok in H as (x & E & H). apply map2_ok in E as (E1 & E2 & _). apply map2_ok in H as (H1 & H2 & _).
  split; [exact H1|]. split; eapply fits_trans; eassumption.
Qed.
Lemma iop_ok {B} bk int (g : xf -> B -> xf) a b r : iop bk int g a b = Ok r ->
  fits (nd_shape a) (nd_shape r) /\ fits (nd_shape b) (nd_shape r) /\ (rebinds bk a = false -> nd_shape r = nd_shape a /\ nd_int a && negb int = false).
Proof.
  unfold iop. destruct (rebinds bk a).
  - intros H. apply map2_ok in H as (H1 & H2 & _). split; [exact H1|]. split; [exact H2|discriminate].
  - destruct (nd_int a && negb int); [discriminate|]. intros H. apply bind_ok in H as (x & E & H). apply map2_ok in E as (H1 & H2 & _).
    destruct (list_eq_dec Nat.eq_dec (nd_shape x) (nd_shape a)) as [Q|]; [|discriminate]. injection H as <-. auto.
Qed.
Lemma common_unique S s t : common S s -> common S t -> s = t.
Proof. intros [A1 A2] [B1 B2]. apply fits_antisym; auto. Qed.
Lemma rebinds_not bk (a : nd xf) : rebinds bk a = false -> bk <> Jax /\ (nd_shape a <> [] \/ bk = Cupy).
Proof. unfold rebinds. destruct bk, (nd_shape a); try discriminate; intros _; (split; [discriminate|]); auto; left; discriminate. Qed.
Lemma rebinds_false bk (a : nd xf) : bk <> Jax -> (nd_shape a <> [] \/ bk = Cupy) -> rebinds bk a = false.
Proof. unfold rebinds. destruct bk, (nd_shape a); intros H [Q|Q]; congruence. Qed.
Lemma in_place_ok bk (a : nd xf) p S (T : list (list nat)) : common S p -> common S (nd_shape a) ->
  bk = Jax \/ bk = Numpy /\ p = [] \/ (forall u, In u T -> fits u p) -> rebinds bk a = true \/ (forall u, In u T -> fits u (nd_shape a)).
Proof.
  intros C1 C2 H. rewrite (common_unique _ _ _ C2 C1). destruct H as [->|[[-> E]|H]]; [now left| |now right].
  left. unfold rebinds. now rewrite (common_unique _ _ _ C2 C1), E.
Qed.
Lemma common_same S S' s : common S s -> incl S S' -> incl S' S -> common S' s.
Proof. intros [A B] I1 I2. split; [auto|]. intros t H. apply B. auto. Qed.
Ltac step L := let r := fresh "r" in let E := fresh "E" in let C := fresh "C" in destruct L as (r & E & ? & ? & C); rewrite E; cbn [bind].

Lemma C145_powerlaw_partial_pf :
  forall bk xx alpha high low p, compatible [xx; alpha; high; low] ->
  (forall b, In b [high; low] -> nd_py b = true -> nd_at b [] <> Fin 0) ->
  nd_int alpha = false \/ (nd_int xx = false /\ forall b, In b [high; low] -> nd_int b = false \/ (nd_py b = true /\ nd_py alpha = true)) ->
  common [nd_shape xx; nd_shape alpha] p -> bk = Jax \/ bk = Numpy /\ p = [] \/ (fits (nd_shape high) p /\ fits (nd_shape low) p) ->
  gives (powerlaw_nd bk xx alpha high low) [xx; alpha; high; low]
    (fun i => powerlaw_body (entry xx i) (entry alpha i) (entry high i) (entry low i)).
Proof.
  intros bk xx alpha high low p [w W] Z D Cp H.
  assert (Cx : comp w xx [nd_shape xx] (entry xx)) by (apply comp_arg, W; cbn; auto).
  assert (Ca : comp w alpha [nd_shape alpha] (entry alpha)) by (apply comp_arg, W; cbn; auto).
  assert (Ch : comp w high [nd_shape high] (entry high)) by (apply comp_arg, W; cbn; auto).
  assert (Cl : comp w low [nd_shape low] (entry low)) by (apply comp_arg, W; cbn; auto 6).
  assert (Zh : nd_py high = true -> nd_at high [] <> Fin 0) by (apply Z; cbn; auto).
  assert (Zl : nd_py low = true -> nd_at low [] <> Fin 0) by (apply Z; cbn; auto).
  assert (C1 : comp w (py_int (Fin 1)) [] (fun _ => Fin 1)) by now apply (comp_py w (py_int (Fin 1))).
  assert (NZ : nd_py high && nd_py low && feq (nd_at low []) (Fin 0) = false).
  { destruct (nd_py low); [|now rewrite andb_false_r]. specialize (Zl eq_refl). destruct (nd_at low []) as [x| | |]; cbn; try now rewrite andb_false_r.
    unfold Reqb. destruct (Req_EM_T x 0) as [->|]; [now destruct Zl|now rewrite andb_false_r]. }
  unfold powerlaw_nd.
  destruct (comp_divide bk w high low _ _ _ _ Ch Cl NZ) as (ratio & E & _ & _ & Cr). rewrite E. cbn [bind]. clear E.
  destruct (comp_divide bk w (py_int (Fin 1)) (nmap flog ratio) _ _ _ _ C1 (comp_map w ratio _ _ flog Cr) eq_refl) as (a & E & _ & _ & CA). rewrite E. cbn [bind]. clear E.
  destruct (comp_op bk w fadd (py_int (Fin 1)) alpha _ _ _ _ C1 Ca) as (e & E & Pe & Ie & Ce). rewrite E. cbn [bind]. clear E. cbn [nd_py nd_int py_int andb] in Pe, Ie.
  assert (Q : forall b, In b [high; low] -> nd_int b && nd_int e = false \/ (nd_py b = true /\ nd_py e = true)).
  { intros b B. rewrite Ie, Pe. destruct D as [->|[_ D]]; [left; apply andb_false_r|]. destruct (D b B) as [->|]; auto. }
  destruct (comp_pow bk w high e _ _ _ _ Ch Ce Zh) as (hp & E & _ & CH); [apply Q; cbn; auto|]. rewrite E. cbn [bind]. clear E.
  destruct (comp_pow bk w low e _ _ _ _ Cl Ce Zl) as (lp & E & _ & CL); [apply Q; cbn; auto|]. rewrite E. cbn [bind]. clear E.
  destruct (comp_op bk w fsub hp lp _ _ _ _ CH CL) as (d & E & _ & _ & CD). rewrite E. cbn [bind]. clear E.
  destruct (comp_divide bk w e (asarray d) _ _ _ _ Ce (comp_asarray _ _ _ _ CD)) as (b & E & _ & _ & CB); [cbn; now rewrite andb_false_r|]. rewrite E. cbn [bind]. clear E.
  unfold nwhere. destruct (comp_map2 bk w false false pair a b _ _ _ _ CA CB) as (ab & E & _ & _ & CAB). rewrite E. cbn [bind]. clear E.
  destruct (comp_map2 bk w false false (fun (c : bool) (ab : xf * xf) => if c then fst ab else snd ab) _ ab _ _ _ _
    (comp_map w _ _ _ (fun x => feq x (Fin (-1))) (comp_asarray _ _ _ _ Ca)) CAB) as (norm & E & _ & _ & CN). rewrite E. cbn [bind]. clear E.
  assert (Ix : nd_int xx && nd_int alpha = false) by (destruct D as [->|[-> _]]; [apply andb_false_r|reflexivity]).
  destruct (comp_power bk w xx alpha _ _ _ _ Cx Ca Ix) as (prob & E & _ & Ip & CP). rewrite E. cbn [bind]. clear E.
  assert (SP : common [nd_shape xx; nd_shape alpha] (nd_shape prob)) by apply CP.
  assert (Hh : rebinds bk prob = true \/ (forall u, In u [nd_shape high; nd_shape low; nd_shape alpha; nd_shape xx] -> fits u (nd_shape prob))).
  { apply in_place_ok with (p := p) (S := [nd_shape xx; nd_shape alpha]); [exact Cp|exact SP|]. destruct H as [H|[H|[H1 H2]]]; [auto|auto|]. right. right.
    intros u [<-|[<-|[<-|[<-|[]]]]]; [exact H1|exact H2|apply Cp; cbn; auto|apply Cp; cbn; auto]. }
  destruct (comp_iop bk w false fmul prob norm _ _ _ _ CP CN) as (prob2 & E & Ip2 & CP2).
  { destruct Hh as [Hh|Hh]; [now left|right]. split; [|now left]. intros u B. apply Hh. revert B. cbn. tauto. }
  assert (RB : rebinds bk prob2 = true \/ (forall u, In u [nd_shape high; nd_shape low; nd_shape alpha; nd_shape xx] -> fits u (nd_shape prob2))).
  { right. intros u B. apply (comp_in _ _ _ _ _ CP2). revert B. cbn. tauto. }
  rewrite E. cbn [bind]. clear E.
  destruct (comp_map2 bk w false true fle xx high _ _ _ _ Cx Ch) as (below & E & _ & _ & C3). rewrite E. cbn [bind]. clear E.
  destruct (comp_map2 bk w false true fge xx low _ _ _ _ Cx Cl) as (above & E & _ & _ & C4). rewrite E. cbn [bind]. clear E.
  destruct (comp_map2 bk w false true andb below above _ _ _ _ C3 C4) as (ins & E & _ & _ & C5). rewrite E. cbn [bind]. clear E.
  destruct (comp_iop bk w true (fun p (c : bool) => fmul p (of_bool c)) prob2 ins _ _ _ _ CP2 C5) as (y & E & _ & CY).
  { destruct RB as [RB|RB]; [now left|right]. split; [|now right]. intros u B. apply RB. revert B. cbn. tauto. }
  rewrite E. eapply comp_gives; [eapply comp_ext; [exact CY|]| |].
  - intros i. cbn beta. unfold powerlaw_body, powerlaw_norm. cbn [fst snd]. reflexivity.
  - intros u B. revert B. cbn. tauto.
  - intros u B. revert B. cbn. tauto.
Qed.

Lemma C145_powerlaw_shape_refuted_pf :
  forall bk xx alpha high low,
  (forall y, powerlaw_nd bk xx alpha high low = Ok y -> compatible [xx; alpha; high; low]) /\
  (forall p, common [nd_shape xx; nd_shape alpha] p -> bk <> Jax -> p <> [] \/ bk = Cupy -> ~ (fits (nd_shape high) p /\ fits (nd_shape low) p) ->
   exists e, powerlaw_nd bk xx alpha high low = Err e).
Proof.
  intros bk xx alpha high low.
  assert (M : forall y, powerlaw_nd bk xx alpha high low = Ok y -> exists prob, common [nd_shape xx; nd_shape alpha] (nd_shape prob) /\ nd_int prob = nd_int xx && nd_int alpha /\
    (rebinds bk prob = false -> fits (nd_shape high) (nd_shape prob) /\ fits (nd_shape low) (nd_shape prob)) /\
    forall a, In a [xx; alpha; high; low] -> fits (nd_shape a) (nd_shape y)).
  { intros y H. unfold powerlaw_nd in H.
    apply bind_ok in H as (ratio & E1 & H). apply bind_ok in H as (a & E2 & H). apply bind_ok in H as (e & E3 & H). apply bind_ok in H as (hp & E4 & H).
    apply bind_ok in H as (lp & E5 & H). apply bind_ok in H as (d & E6 & H). apply bind_ok in H as (b & E7 & H). apply bind_ok in H as (norm & E8 & H).
    apply bind_ok in H as (prob & E9 & H). apply bind_ok in H as (prob2 & E10 & H). apply bind_ok in H as (below & E11 & H).
    apply bind_ok in H as (above & E12 & H). apply bind_ok in H as (ins & E13 & H).
    apply divide_ok in E1 as [A1 A2]. apply divide_ok in E2 as [_ A3]. cbn [nmap nd_shape] in A3. apply where_ok in E8 as (_ & A4 & _).
    assert (Fh : fits (nd_shape high) (nd_shape norm)) by (eapply fits_trans; [exact A1|]; eapply fits_trans; eassumption).
    assert (Fl : fits (nd_shape low) (nd_shape norm)) by (eapply fits_trans; [exact A2|]; eapply fits_trans; eassumption).
    apply power_ok in E9 as (P1 & P2 & P3 & P4). apply iop_ok in E10 as (I1 & I2 & I3). apply iop_ok in H as (J1 & J2 & _).
    exists prob. split; [|split; [exact P4|split]].
    - split; [intros u [<-|[<-|[]]]; assumption|]. intros t T. apply P3; apply T; cbn; auto.
    - intros R. destruct (I3 R) as [Q _]. rewrite Q in I2. split; eapply fits_trans; eassumption.
    - assert (K : fits (nd_shape prob) (nd_shape y)) by (eapply fits_trans; eassumption).
      assert (K2 : fits (nd_shape norm) (nd_shape y)) by (eapply fits_trans; eassumption).
      intros x [<-|[<-|[<-|[<-|[]]]]]; eapply fits_trans; eassumption. }
  split.
  - intros y H. destruct (M y H) as (prob & _ & _ & _ & F). now exists (nd_shape y).
  - intros p Cp J Q N. destruct (powerlaw_nd bk xx alpha high low) as [y|e]; [|eauto]. exfalso. destruct (M y eq_refl) as (prob & C & _ & F & _).
    pose proof (common_unique _ _ _ Cp C) as U. rewrite U in *. apply N, F. now apply rebinds_false.
Qed.

Lemma C145_powerlaw_integers_refuted_pf :
  forall xx alpha high low, nd_int xx = true -> nd_int alpha = true -> nd_shape xx <> [] ->
  exists e, powerlaw_nd Numpy xx alpha high low = Err e.
Proof.
  intros xx alpha high low Ix Ia S. destruct (powerlaw_nd Numpy xx alpha high low) as [y|e] eqn:H; [|eauto]. exfalso. unfold powerlaw_nd in H.
  apply bind_ok in H as (ratio & E1 & H). apply bind_ok in H as (a & E2 & H). apply bind_ok in H as (e & E3 & H). apply bind_ok in H as (hp & E4 & H).
  apply bind_ok in H as (lp & E5 & H). apply bind_ok in H as (d & E6 & H). apply bind_ok in H as (b & E7 & H). apply bind_ok in H as (norm & E8 & H).
  apply bind_ok in H as (prob & E9 & H). apply bind_ok in H as (prob2 & E10 & H). clear H.
  apply power_ok in E9 as (P1 & _ & _ & P4). rewrite Ix, Ia in P4. apply iop_ok in E10 as (_ & _ & I3).
  destruct I3 as [_ I3]; [|rewrite P4 in I3; discriminate]. apply rebinds_false; [discriminate|]. left. intros E. rewrite E in P1.
  destruct (nd_shape xx); [now apply S|exact P1].
Qed.

Lemma C145_powerlaw_zero_refuted_pf :
  forall bk xx alpha high low, nd_py high = true -> nd_py low = true -> nd_at low [] = Fin 0 ->
  powerlaw_nd bk xx alpha high low = Err ZeroDivisionError.
Proof.
  intros bk xx alpha high low H1 H2 H3. unfold powerlaw_nd, ndivide at 1. rewrite H1, H2, H3. cbn [andb feq]. unfold Reqb.
  destruct (Req_EM_T 0 0) as [_|N]; [reflexivity|now destruct N].
Qed.

Lemma C145_truncnorm_partial_pf :
  forall bk xx mu sigma high low p, common [nd_shape xx; nd_shape mu; nd_shape sigma] p ->
  (compatible [xx; mu; sigma; high; low] -> bk = Jax \/ bk = Numpy /\ p = [] \/ (fits (nd_shape high) p /\ fits (nd_shape low) p) ->
   gives (truncnorm_nd bk xx mu sigma high low) [xx; mu; sigma; high; low]
     (fun i => truncnorm_body (entry xx i) (entry mu i) (entry sigma i) (entry high i) (entry low i))) /\
  (bk <> Jax -> p <> [] \/ bk = Cupy -> ~ (fits (nd_shape high) p /\ fits (nd_shape low) p) ->
   exists e, truncnorm_nd bk xx mu sigma high low = Err e).
Proof.
  intros bk xx mu sigma high low p Cp. split.
  - intros [w W] H.
    assert (Cx : comp w xx [nd_shape xx] (entry xx)) by (apply comp_arg, W; cbn; auto).
    assert (Cm : comp w mu [nd_shape mu] (entry mu)) by (apply comp_arg, W; cbn; auto).
    assert (Cs : comp w sigma [nd_shape sigma] (entry sigma)) by (apply comp_arg, W; cbn; auto).
    assert (Ch : comp w high [nd_shape high] (entry high)) by (apply comp_arg, W; cbn; auto 6).
    assert (Cl : comp w low [nd_shape low] (entry low)) by (apply comp_arg, W; cbn; auto 7).
    unfold truncnorm_nd.
    destruct (comp_op bk w fsub xx mu _ _ _ _ Cx Cm) as (xm & E & _ & _ & C1). rewrite E. cbn [bind]. clear E.
    destruct (comp_divide bk w (asarray xm) sigma _ _ _ _ (comp_asarray _ _ _ _ C1) Cs eq_refl) as (zz & E & _ & _ & Cz). rewrite E. cbn [bind]. clear E.
    destruct (comp_op bk w fsub low mu _ _ _ _ Cl Cm) as (lm & E & _ & _ & C2). rewrite E. cbn [bind]. clear E.
    destruct (comp_divide bk w (asarray lm) sigma _ _ _ _ (comp_asarray _ _ _ _ C2) Cs eq_refl) as (aa & E & _ & _ & Ca). rewrite E. cbn [bind]. clear E.
    destruct (comp_op bk w fsub high mu _ _ _ _ Ch Cm) as (hm & E & _ & _ & C3). rewrite E. cbn [bind]. clear E.
    destruct (comp_divide bk w (asarray hm) sigma _ _ _ _ (comp_asarray _ _ _ _ C3) Cs eq_refl) as (bb & E & _ & _ & Cb). rewrite E. cbn [bind]. clear E.
    destruct (comp_map2 bk w false false fsub _ _ _ _ _ _ (comp_map w zz _ _ (fun z => fsub (fdiv (fopp (fsq z)) (Fin 2)) (Fin (ln (2 * PI) / 2)%R)) Cz) (comp_map w sigma _ _ flog Cs))
      as (lpdf & E & _ & Ilp & CP). rewrite E. cbn [bind]. clear E.
    destruct (comp_map2 bk w false false truncnorm_log_norm aa bb _ _ _ _ Ca Cb) as (ln & E & _ & _ & CN). rewrite E. cbn [bind]. clear E.
    destruct (comp_iop bk w false fsub lpdf ln _ _ _ _ CP CN) as (lpdf2 & E & _ & CP2).
    { destruct (in_place_ok bk lpdf p [nd_shape xx; nd_shape mu; nd_shape sigma] [nd_shape high; nd_shape low; nd_shape mu; nd_shape sigma]) as [R|R].
      - exact Cp.
      - eapply common_same; [apply CP| |]; intros u B; revert B; cbn; tauto.
      - destruct H as [H|[H|[H1 H2]]]; [auto|auto|]. right. right. intros u [<-|[<-|[<-|[<-|[]]]]]; [exact H1|exact H2|apply Cp; cbn; auto|apply Cp; cbn; auto].
      - now left.
      - right. split; [|now left]. intros u B. apply R. revert B. cbn. tauto. }
    rewrite E. cbn [bind]. clear E.
    destruct (comp_map2 bk w false true fge xx low _ _ _ _ Cx Cl) as (above & E & _ & _ & C4). rewrite E. cbn [bind]. clear E.
    destruct (comp_map2 bk w false true fle xx high _ _ _ _ Cx Ch) as (below & E & _ & _ & C5). rewrite E. cbn [bind]. clear E.
    destruct (comp_map2 bk w false false (fun p (c : bool) => fmul p (of_bool c)) _ above _ _ _ _ (comp_map w lpdf2 _ _ (fun l => nan_to_num (fexp l)) CP2) C4) as (q & E & _ & _ & C6). rewrite E. cbn [bind]. clear E.
    destruct (comp_map2 bk w false false (fun p (c : bool) => fmul p (of_bool c)) q below _ _ _ _ C6 C5) as (y & E & _ & _ & C7). rewrite E.
    eapply comp_gives; [eapply comp_ext; [exact C7|]| |].
    + intros i. cbn beta. reflexivity.
    + intros u B. revert B. cbn. tauto.
    + intros u B. revert B. cbn. tauto.
  - intros J Q N. destruct (truncnorm_nd bk xx mu sigma high low) as [y|e] eqn:H; [|eauto]. exfalso. unfold truncnorm_nd in H.
    apply bind_ok in H as (xm & E1 & H). apply bind_ok in H as (zz & E2 & H). apply bind_ok in H as (lm & E3 & H). apply bind_ok in H as (aa & E4 & H).
    apply bind_ok in H as (hm & E5 & H). apply bind_ok in H as (bb & E6 & H). apply bind_ok in H as (lpdf & E7 & H). apply bind_ok in H as (ln & E8 & H).
    apply bind_ok in H as (lpdf2 & E9 & H). clear H.
    apply map2_ok in E1 as (A1 & A2 & A3 & _). unfold ndivide in E2. cbn [asarray nd_py andb] in E2. apply map2_ok in E2 as (B1 & B2 & B3 & _). cbn [asarray nd_shape] in B1, B3.
    apply map2_ok in E3 as (D1 & _). apply divide_ok in E4 as [D2 _]. apply map2_ok in E5 as (D3 & _). apply divide_ok in E6 as [D4 _]. cbn [asarray nd_shape] in D2, D4.
    apply map2_ok in E7 as (G1 & G2 & G3 & _). cbn [nmap nd_shape] in G1, G2, G3. apply map2_ok in E8 as (K1 & K2 & _). apply iop_ok in E9 as (_ & I2 & I3).
    assert (C : common [nd_shape xx; nd_shape mu; nd_shape sigma] (nd_shape lpdf)).
    { split.
      - intros u [<-|[<-|[<-|[]]]]; [| |exact G2]; (eapply fits_trans; [|exact G1]); (eapply fits_trans; [|exact B1]); assumption.
      - intros t T. apply G3; [|apply T; cbn; auto]. apply B3; [|apply T; cbn; auto]. apply A3; apply T; cbn; auto. }
    pose proof (common_unique _ _ _ Cp C) as U. rewrite U in *. destruct I3 as [I3 _]; [now apply rebinds_false|]. rewrite I3 in I2. apply N.
    split; (eapply fits_trans; [|exact I2]); [eapply fits_trans; [|exact K2]; eapply fits_trans; [|exact D4]|eapply fits_trans; [|exact K1]; eapply fits_trans; [|exact D2]]; assumption.
Qed.

Lemma C145_beta_pf :
  forall bk xx alpha beta scale, compatible [xx; alpha; beta; scale] ->
  gives (beta_dist_nd bk xx alpha beta scale) [xx; alpha; beta; scale]
    (fun i => beta_dist_body (entry xx i) (entry alpha i) (entry beta i) (entry scale i)).
Proof.
  intros bk xx alpha beta scale [w W].
  assert (Cx : comp w xx [nd_shape xx] (entry xx)) by (apply comp_arg, W; cbn; auto).
  assert (Ca : comp w alpha [nd_shape alpha] (entry alpha)) by (apply comp_arg, W; cbn; auto).
  assert (Cb : comp w beta [nd_shape beta] (entry beta)) by (apply comp_arg, W; cbn; auto).
  assert (Cs : comp w scale [nd_shape scale] (entry scale)) by (apply comp_arg, W; cbn; auto 6).
  assert (C1 : comp w (py_int (Fin 1)) [] (fun _ => Fin 1)) by now apply (comp_py w (py_int (Fin 1))).
  unfold beta_dist_nd.
  destruct (comp_op bk w fsub alpha _ _ _ _ _ Ca C1) as (a1 & E & _ & _ & Ca1). rewrite E. cbn [bind]. clear E.
  destruct (comp_op bk w fsub beta _ _ _ _ _ Cb C1) as (b1 & E & _ & _ & Cb1). rewrite E. cbn [bind]. clear E.
  destruct (comp_op bk w fsub scale xx _ _ _ _ Cs Cx) as (rest & E & _ & _ & Cr). rewrite E. cbn [bind]. clear E.
  destruct (comp_map2 bk w false false fmul a1 _ _ _ _ _ Ca1 (comp_map w xx _ _ flog Cx)) as (s & E & _ & Is & CS). rewrite E. cbn [bind]. clear E.
  destruct (comp_map2 bk w false false fmul b1 _ _ _ _ _ Cb1 (comp_map w rest _ _ flog Cr)) as (t & E & _ & It & CT). rewrite E. cbn [bind]. clear E.
  destruct (comp_op bk w fadd s t _ _ _ _ CS CT) as (lb & E & _ & Il & CL). rewrite E. cbn [bind]. clear E. rewrite Is in Il. cbn [andb] in Il.
  destruct (comp_map2 bk w false false fbetaln alpha beta _ _ _ _ Ca Cb) as (norm & E & _ & _ & CN). rewrite E. cbn [bind]. clear E.
  destruct (comp_iop bk w false fsub lb norm _ _ _ _ CL CN) as (lb2 & E & Il2 & CL2).
  { right. split; [|now left]. intros u B. apply (comp_in _ _ _ _ _ CL). revert B. cbn. tauto. }
  rewrite E. cbn [bind]. clear E. rewrite Il in Il2. cbn [andb] in Il2.
  destruct (comp_op bk w fadd alpha beta _ _ _ _ Ca Cb) as (ab & E & _ & _ & Cab). rewrite E. cbn [bind]. clear E.
  destruct (comp_op bk w fsub ab _ _ _ _ _ Cab C1) as (ab1 & E & _ & _ & Cab1). rewrite E. cbn [bind]. clear E.
  destruct (comp_map2 bk w false false fmul ab1 _ _ _ _ _ Cab1 (comp_map w scale _ _ flog Cs)) as (u & E & _ & _ & CU). rewrite E. cbn [bind]. clear E.
  destruct (comp_iop bk w false fsub lb2 u _ _ _ _ CL2 CU) as (lb3 & E & _ & CL3).
  { right. split; [|now left]. intros v B. apply (comp_in _ _ _ _ _ CL2). revert B. cbn. tauto. }
  rewrite E. cbn [bind]. clear E. cbv zeta.
  destruct (comp_map2 bk w false true fle xx scale _ _ _ _ Cx Cs) as (below & E & _ & _ & C4). rewrite E. cbn [bind]. clear E.
  destruct (comp_map2 bk w false true (fun a b : bool => fmul (of_bool a) (of_bool b)) _ below _ _ _ _ (comp_map w xx _ _ (fun x => fge x (Fin 0)) Cx) C4) as (ins & E & _ & _ & C5). rewrite E. cbn [bind]. clear E.
  destruct (comp_iop bk w true fmul (nmap (fun l => nan_to_num (fexp l)) lb3) ins _ _ _ _ (comp_map w lb3 _ _ (fun l => nan_to_num (fexp l)) CL3) C5) as (y & E & _ & CY).
  { right. split; [|now right]. cbn [nmap nd_shape]. intros v B. apply (comp_in _ _ _ _ _ CL3). revert B. cbn. tauto. }
  rewrite E. eapply comp_gives; [eapply comp_ext; [exact CY|]| |].
  - intros i. cbn beta. unfold beta_dist_body. reflexivity.
  - intros v B. revert B. cbn. tauto.
  - intros v B. revert B. cbn. tauto.
Qed.

Lemma C145_mass_ratio_pf :
  forall bk q m1 beta mmin, nd_shape m1 = nd_shape q -> nd_shape beta = [] -> nd_shape mmin = [] -> nd_int beta = false -> nd_py m1 = false ->
  exists low, ndivide bk mmin m1 = Ok low /\
  gives (powerlaw_nd bk q beta (py_int (Fin 1)) low) [q]
    (fun i => powerlaw_body (entry q i) (nd_at beta []) (Fin 1) (fdiv (nd_at mmin []) (entry m1 i))).
Proof.
  intros bk q m1 beta mmin S1 S2 S3 I1 P1. set (w := nd_shape q).
  assert (Cm : comp w m1 [nd_shape m1] (entry m1)) by (apply comp_arg; rewrite S1; apply fits_refl).
  destruct (comp_divide bk w mmin m1 _ _ _ _ (comp_py w mmin S3) Cm) as (low & E & P & J & C); [now rewrite P1, andb_false_r|].
  exists low. split; [exact E|]. rewrite P1, andb_false_r in P.
  assert (SL : nd_shape low = w).
  { unfold ndivide in E. rewrite P1, andb_false_r in E. cbn [andb] in E. unfold nmap2 in E. rewrite S3 in E. cbn [bcast] in E. injection E as <-. exact S1. }
  destruct (C145_powerlaw_partial_pf bk q beta (py_int (Fin 1)) low w) as (y & Y & CY & V).
  - exists w. intros a [<-|[<-|[<-|[<-|[]]]]]; [apply fits_refl|rewrite S2; exact I|exact I|rewrite SL; apply fits_refl].
  - intros b [<-|[<-|[]]] H; [|congruence]. cbn. intros F. injection F as F. lra.
  - now left.
  - split; [intros u [<-|[<-|[]]]; [apply fits_refl|rewrite S2; exact I]|]. intros t T. apply T. now left.
  - right. right. split; [exact I|rewrite SL; apply fits_refl].
  - exists y. split; [exact Y|]. split.
    + eapply common_unique in CY as K.
      2: { split; [intros u [<-|[<-|[<-|[<-|[]]]]]; [apply (fits_refl w)|rewrite S2; exact I|exact I|rewrite SL; apply fits_refl]|]. intros t T. apply T. now left. }
      rewrite <- K. split; [intros u [<-|[]]; apply fits_refl|]. intros t T. apply T. now left.
    + intros i L. rewrite (V i L). unfold entry at 2 3. rewrite S2. cbn [own py_int nd_shape nd_at]. f_equal.
      destruct C as (_ & _ & C). unfold entry at 1. rewrite own_bidx. apply C. rewrite SL. 
      assert (K : fits w (nd_shape y)) by (destruct CY as [CY _]; apply CY; now left). apply fits_length in K. apply inside_length in L. lia.
Qed.

