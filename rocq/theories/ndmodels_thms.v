(** Proofs of the property theorems stated in [Props_ndmodels]. *)
From Coq Require Import Reals Lra String.
From Coq Require Import List Bool Arith Lia.
From Verif Require Import Xf Py Np Special Utils_model Mass_model Spin_model Xf_facts Nd_model SpecNd nd_thms NdModels_model SpecNdModels.
Import ListNotations.
(** A column of shape [s] with entries [g], and a scalar with value [x]. *)
Definition col {A} (s : list nat) (a : nd A) (g : list nat -> A) : Prop := nd_shape a = s /\ forall i, inside s i -> nd_at a i = g i.
Definition sc {A} (a : nd A) (x : A) : Prop := nd_shape a = [] /\ nd_at a [] = x.
(** As [elementwise]; the result is not a Python number. *)
Definition agree (s : list nat) (r : result (nd xf)) (f : list nat -> result xf) : Prop :=
  (exists y, r = Ok y /\ nd_shape y = s /\ nd_py y = false /\ forall i, inside s i -> f i = Ok (nd_at y i)) \/
  (exists e, r = Err e /\ forall i, inside s i -> f i = Err e).
Lemma agree_elementwise s r f : agree s r f -> elementwise r s f.
Proof. intros [(y & E & S & _ & V)|H]; [left; exists y; auto|right; exact H]. Qed.
Lemma agree_bind s r f k h : agree s r f ->
  (forall y g, col s y g -> nd_py y = false -> agree s (k y) (fun i => h i (g i))) -> agree s (bind r k) (fun i => bind (f i) (h i)).
Proof.
  intros [(y & -> & S & P & V)|(e & -> & V)] H; cbn.
  - specialize (H y (nd_at y) (conj S (fun i _ => eq_refl)) P). destruct H as [(z & -> & Sz & Pz & Vz)|(e & -> & Vz)].
    + left. exists z. repeat (split; [auto|]). intros i I. rewrite (V i I). cbn. auto.
    + right. exists e. split; [reflexivity|]. intros i I. rewrite (V i I). cbn. auto.
  - right. exists e. split; [reflexivity|]. intros i I. rewrite (V i I). reflexivity.
Qed.
Lemma inside_nil : inside [] [].
Proof. constructor. Qed.
Lemma agree_bind_scalar s r m k h : agree [] r (fun _ => m) ->
  (forall y x, sc y x -> nd_py y = false -> agree s (k y) (fun i => h i x)) -> agree s (bind r k) (fun i => bind m (h i)).
Proof.
  intros [(y & -> & S & P & V)|(e & -> & V)] H; cbn.
  - rewrite (V [] inside_nil). cbn. apply H; [split; [exact S|reflexivity]|exact P].
  - rewrite (V [] inside_nil). right. exists e. split; [reflexivity|]. reflexivity.
Qed.
Lemma agree_ext s r f g : (forall i, inside s i -> f i = g i) -> agree s r f -> agree s r g.
Proof.
  intros E [(y & R1 & S & P & V)|(e & R1 & V)]; [left; exists y|right; exists e]; repeat (split; [auto|]); intros i I; rewrite <- (E i I); auto.
Qed.
(** Operations on columns and scalars. *)
Lemma bcast_nil_r s : bcast s [] = Some s.
Proof. now destruct s. Qed.
Lemma bcast_same s : bcast s s = Some s.
Proof. apply bcast_fits, fits_refl. Qed.
Lemma map2_cc {A B C} bk py int (f : A -> B -> C) s a b g h : col s a g -> col s b h ->
  exists r, nmap2 bk py int f a b = Ok r /\ nd_py r = py /\ nd_int r = int /\ col s r (fun i => f (g i) (h i)).
Proof.
  intros [Sa Va] [Sb Vb]. unfold nmap2. rewrite Sa, Sb, bcast_same. eexists. split; [reflexivity|]. cbn. repeat (split; [reflexivity|]).
  intros i I. cbn. rewrite ?(bidx_inside s i I), Va, Vb; auto.
Qed.
Lemma map2_cs {A B C} bk py int (f : A -> B -> C) s a b g x : col s a g -> sc b x ->
  exists r, nmap2 bk py int f a b = Ok r /\ nd_py r = py /\ nd_int r = int /\ col s r (fun i => f (g i) x).
Proof.
  intros [Sa Va] [Sb Vb]. unfold nmap2. rewrite Sa, Sb, bcast_nil_r. eexists. split; [reflexivity|]. cbn. repeat (split; [reflexivity|]).
  intros i I. cbn. rewrite ?(bidx_inside s i I), Va, Vb; auto.
Qed.
Lemma map2_sc {A B C} bk py int (f : A -> B -> C) s a b x h : sc a x -> col s b h ->
  exists r, nmap2 bk py int f a b = Ok r /\ nd_py r = py /\ nd_int r = int /\ col s r (fun i => f x (h i)).
Proof.
  intros [Sa Va] [Sb Vb]. unfold nmap2. rewrite Sa, Sb. cbn [bcast]. eexists. split; [reflexivity|]. cbn. repeat (split; [reflexivity|]).
  intros i I. cbn. rewrite ?(bidx_inside s i I), Va, Vb; auto.
Qed.
Lemma map2_ss {A B C} bk py int (f : A -> B -> C) a b x y : sc a x -> sc b y ->
  exists r, nmap2 bk py int f a b = Ok r /\ nd_py r = py /\ nd_int r = int /\ sc r (f x y).
Proof.
  intros [Sa Va] [Sb Vb]. unfold nmap2. rewrite Sa, Sb. cbn [bcast]. eexists. split; [reflexivity|]. cbn. repeat (split; [reflexivity|]). cbn. now rewrite Va, Vb.
Qed.
Lemma divide_lib bk a b : nd_py a = false \/ nd_py b = false -> ndivide bk a b = nmap2 bk false false fdiv a b.
Proof. unfold ndivide. intros [->| ->]; [|rewrite andb_false_r]; reflexivity. Qed.
Lemma divide_four bk a : ndivide bk a (py_int (Fin 4)) = nmap2 bk (nd_py a) false fdiv a (py_int (Fin 4)).
Proof.
  unfold ndivide. cbn [nd_py py_int nd_at]. replace (feq (Fin 4) (Fin 0)) with false by (cbn; unfold Reqb; destruct (Req_EM_T 4 0); [lra|reflexivity]).
  rewrite andb_false_r, andb_true_r. reflexivity.
Qed.
Lemma agree_ok s y g f : col s y g -> nd_py y = false -> (forall i, inside s i -> f i = Ok (g i)) -> agree s (Ok y) f.
Proof. intros [S V] P E. left. exists y. repeat (split; [auto|]). intros i I. rewrite E, V; auto. Qed.
Lemma agree_map2 s r f g : (exists y, r = Ok y /\ nd_py y = false /\ col s y g) -> (forall i, inside s i -> f i = Ok (g i)) -> agree s r f.
Proof. intros (y & -> & P & C) E. now apply (agree_ok s y g). Qed.
(** The densities. *)
Lemma common_col s : common [s; []] s.
Proof. split; [intros u [<-|[<-|[]]]; [apply fits_refl|exact I]|]. intros t H. apply H. now left. Qed.
Lemma common_col3 s : common [s; []; []] s.
Proof. split; [intros u [<-|[<-|[<-|[]]]]; [apply fits_refl|exact I|exact I]|]. intros t H. apply H. now left. Qed.
Lemma gives_col r args f s : gives r args f -> common (map nd_shape args) s -> exists y, r = Ok y /\ col s y f.
Proof. intros (y & E & C & V) H. exists y. split; [exact E|]. rewrite (common_unique _ _ _ C H) in V. split; [exact (common_unique _ _ _ C H)|exact V]. Qed.
Lemma common_shapes s (l : list (list nat)) : In s l -> (forall u, In u l -> u = s \/ u = []) -> common l s.
Proof. intros I H. split; [intros u J; destruct (H u J) as [->| ->]; [apply fits_refl|exact Logic.I]|]. intros t T. now apply T. Qed.
Lemma entry_col s a i : nd_shape a = s -> inside s i -> entry a i = nd_at a i.
Proof. intros <- I. unfold entry. now rewrite own_bidx, bidx_inside. Qed.
Lemma entry_sc a x i : sc a x -> entry a i = x.
Proof. intros [S V]. unfold entry. rewrite S. exact V. Qed.
Lemma iop_py {B} bk int (g : xf -> B -> xf) a b r : iop bk int g a b = Ok r -> nd_py r = false.
Proof.
  unfold iop, nmap2. destruct (rebinds bk a).
  - destruct (bcast _ _); [|discriminate]. intros E. now injection E as <-.
  - destruct (nd_int a && negb int); [discriminate|]. destruct (bcast _ _); cbn [bind]; [|discriminate]. destruct (list_eq_dec Nat.eq_dec _ _); [|discriminate].
    intros E. now injection E as <-.
Qed.
Lemma map2_py {A B C} bk py int (f : A -> B -> C) a b r : nmap2 bk py int f a b = Ok r -> nd_py r = py.
Proof. unfold nmap2. destruct (bcast _ _); [|discriminate]. intros E. now injection E as <-. Qed.
Lemma powerlaw_py bk xx alpha high low r : powerlaw_nd bk xx alpha high low = Ok r -> nd_py r = false.
Proof. unfold powerlaw_nd. intros H. repeat (apply bind_ok in H as (? & _ & H)). now apply iop_py in H. Qed.
Lemma truncnorm_py bk xx mu sigma high low r : truncnorm_nd bk xx mu sigma high low = Ok r -> nd_py r = false.
Proof. unfold truncnorm_nd. intros H. repeat (apply bind_ok in H as (? & _ & H)). now apply map2_py in H. Qed.
Lemma beta_py bk xx alpha beta scale r : beta_dist_nd bk xx alpha beta scale = Ok r -> nd_py r = false.
Proof. unfold beta_dist_nd. intros H. repeat (apply bind_ok in H as (? & _ & H)). now apply iop_py in H. Qed.
(** What the power law needs of its arguments. *)
Definition pl_ok (xx alpha high low : nd xf) : Prop :=
  (forall b, In b [high; low] -> nd_py b = true -> nd_at b [] <> Fin 0) /\
  (nd_int alpha = false \/ (nd_int xx = false /\ forall b, In b [high; low] -> nd_int b = false \/ (nd_py b = true /\ nd_py alpha = true))).
Lemma pl_body bk s xx g alpha a high h low l : col s xx g -> sc alpha a -> sc high h -> (col s low l \/ exists x, sc low x /\ forall i, l i = x) ->
  pl_ok xx alpha high low -> exists y, powerlaw_nd bk xx alpha high low = Ok y /\ nd_py y = false /\ col s y (fun i => powerlaw_body (g i) a h (l i)).
Proof.
  intros Cx Ca Ch Cl [Z N].
  assert (SH : forall u, In u (map nd_shape [xx; alpha; high; low]) -> u = s \/ u = []).
  { cbn. destruct Cx as [-> _], Ca as [Sa _], Ch as [Sh _]. rewrite Sa, Sh. intros u [<-|[<-|[<-|[<-|[]]]]]; auto. destruct Cl as [[-> _]|(x & [-> _] & _)]; auto. }
  assert (C4 : common (map nd_shape [xx; alpha; high; low]) s). { apply common_shapes; [|exact SH]. left. apply Cx. }
  assert (G : gives (powerlaw_nd bk xx alpha high low) [xx; alpha; high; low] (fun i => powerlaw_body (entry xx i) (entry alpha i) (entry high i) (entry low i))).
  { apply (C145_powerlaw_partial_pf bk xx alpha high low s).
    - exists s. intros b I. apply (proj1 C4). now apply in_map.
    - exact Z.
    - exact N.
    - destruct Cx as [-> _], Ca as [-> _]. apply common_col.
    - right; right. split; apply (proj1 C4); cbn; auto. }
  destruct (gives_col _ _ _ s G C4) as (y & E & [S V]). exists y. split; [exact E|]. split; [now apply powerlaw_py in E|]. split; [exact S|].
  intros i I. rewrite (V i I), (entry_sc _ _ i Ca), (entry_sc _ _ i Ch). rewrite (entry_col s xx i (proj1 Cx) I), (proj2 Cx i I).
  destruct Cl as [Cl|(x & Cl & L)]; [rewrite (entry_col s low i (proj1 Cl) I), (proj2 Cl i I)|rewrite (entry_sc _ _ i Cl), L]; reflexivity.
Qed.
Lemma elements_sc {A} (a : nd A) x : sc a x -> elements a = [x].
Proof. intros [S V]. unfold elements. rewrite S. cbn. now rewrite V. Qed.
(** The checks look at scalars only and do not depend on the index. *)
Lemma checked s conds kw kw' bk r f : (forall i, inside s i -> check_conditions conds (kw' i) = check_conditions conds kw) ->
  agree s r f -> agree s (apply_conditions bk conds kw r) (fun i => apply_conditions bk conds (kw' i) (f i)).
Proof.
  intros K H. unfold apply_conditions. destruct (is_jax bk); [exact H|]. destruct (check_conditions conds kw) as [[]|e] eqn:E; cbn.
  - eapply agree_ext; [|exact H]. intros i I. cbn. rewrite (K i I). reflexivity.
  - right. exists e. split; [reflexivity|]. intros i I. now rewrite (K i I).
Qed.
Lemma powerlaw_agree bk s xx g alpha a high h low l : col s xx g -> sc alpha a -> sc high h -> sc low l -> pl_ok xx alpha high low ->
  forall kw, kw = pl_kw \/ kw = [] -> agree s (powerlaw_call bk kw xx alpha high low) (fun i => powerlaw bk kw (g i) a h l).
Proof.
  intros Cx Ca Ch Cl P kw K. unfold powerlaw_call, powerlaw. apply (checked s powerlaw_conds _ (fun i => kwargs_of kw _) bk _ (fun i => Ok _)).
  - intros i I. destruct K as [->| ->]; [|reflexivity]. cbn. rewrite (elements_sc _ _ Ca), (elements_sc _ _ Cl). reflexivity.
  - destruct (pl_body bk s xx g alpha a high h low (fun _ => l) Cx Ca Ch (or_intror (ex_intro _ l (conj Cl (fun _ => eq_refl)))) P) as (y & E & Py & C). rewrite E.
    now apply (agree_ok s y _ _ C Py).
Qed.
Lemma powerlaw_agree_low bk s xx g alpha a high h low l : col s xx g -> sc alpha a -> sc high h -> col s low l -> pl_ok xx alpha high low ->
  agree s (powerlaw_call bk [] xx alpha high low) (fun i => powerlaw bk [] (g i) a h (l i)).
Proof.
  intros Cx Ca Ch Cl P. unfold powerlaw_call, powerlaw. apply (checked s powerlaw_conds _ (fun i => kwargs_of [] _) bk _ (fun i => Ok _)).
  - reflexivity.
  - destruct (pl_body bk s xx g alpha a high h low l Cx Ca Ch (or_introl Cl) P) as (y & E & Py & C). rewrite E. now apply (agree_ok s y _ _ C Py).
Qed.
Lemma truncnorm_agree bk s xx g mu m sigma d high h low l : col s xx g -> sc mu m -> sc sigma d -> sc high h -> sc low l ->
  forall kw, kw = tn_kw \/ kw = [] \/ kw = ["mu"; "sigma"; "low"; "high"]%string -> agree s (truncnorm_call bk kw xx mu sigma high low) (fun i => truncnorm bk kw (g i) m d h l).
Proof.
  intros Cx Cm Cd Ch Cl kw K. unfold truncnorm_call, truncnorm. apply (checked s truncnorm_conds _ (fun i => kwargs_of kw _) bk _ (fun i => Ok _)).
  - intros i I. destruct K as [->|[->| ->]]; try reflexivity; cbn; rewrite (elements_sc _ _ Cd); reflexivity.
  - assert (C5 : common (map nd_shape [xx; mu; sigma; high; low]) s).
    { apply common_shapes; [left; apply Cx|]. cbn. destruct Cx as [-> _], Cm as [-> _], Cd as [-> _], Ch as [-> _], Cl as [-> _]. intros u [<-|[<-|[<-|[<-|[<-|[]]]]]]; auto. }
    assert (C3 : common [nd_shape xx; nd_shape mu; nd_shape sigma] s). { destruct Cx as [-> _], Cm as [-> _], Cd as [-> _]. apply common_col3. }
    assert (G : gives (truncnorm_nd bk xx mu sigma high low) [xx; mu; sigma; high; low] (fun i => truncnorm_body (entry xx i) (entry mu i) (entry sigma i) (entry high i) (entry low i))).
    { apply (proj1 (C145_truncnorm_partial_pf bk xx mu sigma high low s C3)).
      - exists s. intros b I. apply (proj1 C5). now apply in_map.
      - right; right. split; apply (proj1 C5); cbn; tauto. }
    destruct (gives_col _ _ _ s G C5) as (y & E & [S V]). rewrite E.
    apply (agree_ok s y (fun i => truncnorm_body (g i) m d h l)); [split; [exact S|]|now apply truncnorm_py in E|reflexivity].
    intros i I. rewrite (V i I), (entry_sc _ _ i Cm), (entry_sc _ _ i Cd), (entry_sc _ _ i Ch), (entry_sc _ _ i Cl), (entry_col s xx i (proj1 Cx) I), (proj2 Cx i I). reflexivity.
Qed.
Lemma beta_agree bk s xx g alpha a beta b scale c : col s xx g -> sc alpha a -> sc beta b -> sc scale c ->
  agree s (beta_call bk ["scale"%string] xx alpha beta scale) (fun i => beta_dist bk ["scale"%string] (g i) a b c).
Proof.
  intros Cx Ca Cb Cc. unfold beta_call, beta_dist. apply (checked s beta_dist_conds _ (fun i => kwargs_of ["scale"%string] _) bk _ (fun i => Ok _)).
  - intros i I. cbn. rewrite (elements_sc _ _ Cc). reflexivity.
  - assert (C4 : common (map nd_shape [xx; alpha; beta; scale]) s).
    { apply common_shapes; [left; apply Cx|]. cbn. destruct Cx as [-> _], Ca as [-> _], Cb as [-> _], Cc as [-> _]. intros u [<-|[<-|[<-|[<-|[]]]]]; auto. }
    assert (G : gives (beta_dist_nd bk xx alpha beta scale) [xx; alpha; beta; scale] (fun i => beta_dist_body (entry xx i) (entry alpha i) (entry beta i) (entry scale i))).
    { apply C145_beta_pf. exists s. intros t I. apply (proj1 C4). now apply in_map. }
    destruct (gives_col _ _ _ s G C4) as (y & E & [S V]). rewrite E.
    apply (agree_ok s y (fun i => beta_dist_body (g i) a b c)); [split; [exact S|]|now apply beta_py in E|reflexivity].
    intros i I. rewrite (V i I), (entry_sc _ _ i Ca), (entry_sc _ _ i Cb), (entry_sc _ _ i Cc), (entry_col s xx i (proj1 Cx) I), (proj2 Cx i I). reflexivity.
Qed.
(** Arguments of the models. *)
Lemma column_col s a : column s a -> col s a (nd_at a).
Proof. intros [S _]. split; auto. Qed.
Lemma parameter_sc p : parameter p -> sc p (value p).
Proof. intros [S _]. split; auto. Qed.
Lemma neg_sc p x : sc p x -> sc (nneg p) (fopp x).
Proof. intros [S V]. split; [exact S|]. cbn. now rewrite V. Qed.
Lemma py_sc x : sc (py_int x) x.
Proof. split; reflexivity. Qed.
Lemma parameter_flag p : parameter p -> nd_py p = true \/ nd_int p = false.
Proof. now intros [_ H]. Qed.
Lemma pl_params xx alpha high low : nd_int xx = false \/ nd_int alpha = false -> nd_py alpha = true \/ nd_int alpha = false ->
  nd_py high = true \/ nd_int high = false -> nd_py low = true \/ nd_int low = false -> not_python_zero high -> not_python_zero low -> pl_ok xx (nneg alpha) high low.
Proof.
  intros N Fa Fh Fl Zh Zl. split.
  - intros b [<-|[<-|[]]]; [exact Zh|exact Zl].
  - cbn. destruct Fa as [Fa|Fa]; [|left; exact Fa]. destruct N as [N|N]; [|left; exact N]. right. split; [exact N|].
    intros b [<-|[<-|[]]]; [destruct Fh as [Fh|Fh]|destruct Fl as [Fl|Fl]]; auto.
Qed.
Lemma mixture_agree bk s lam x pp p pn q : sc lam x -> col s pp p -> col s pn q -> nd_py pn = false ->
  agree s (two_mixture bk lam pp pn) (fun i => Ok (fadd (fmul (fsub (Fin 1) x) (p i)) (fmul x (q i)))).
Proof.
  intros Cl Cp Cn Pn. unfold two_mixture, nop.
  destruct (map2_ss bk (nd_py (py_int (Fin 1)) && nd_py lam) (nd_int (py_int (Fin 1)) && nd_int lam) fsub _ _ _ _ (py_sc (Fin 1)) Cl) as (r1 & -> & _ & _ & C1). cbn [bind].
  edestruct (fun py int => map2_sc bk py int fmul s _ _ _ _ C1 Cp) as (r2 & -> & _ & _ & C2). cbn [bind].
  edestruct (fun py int => map2_sc bk py int fmul s _ _ _ _ Cl Cn) as (r3 & -> & P3 & _ & C3). cbn [bind].
  edestruct (fun py int => map2_cc bk py int fadd s _ _ _ _ C2 C3) as (r4 & -> & P4 & _ & C4).
  eapply (agree_ok s r4 _ _ C4); [|reflexivity]. rewrite P4, P3, Pn, !andb_false_r. reflexivity.
Qed.
Lemma dpl_agree bk s mass g alpha_1 a1 alpha_2 a2 mmin l mmax h bf f :
  col s mass g -> sc alpha_1 a1 -> sc alpha_2 a2 -> sc mmin l -> sc mmax h -> sc bf f ->
  nd_py alpha_1 = true \/ nd_int alpha_1 = false -> nd_py alpha_2 = true \/ nd_int alpha_2 = false ->
  nd_py mmin = true \/ nd_int mmin = false -> nd_py mmax = true \/ nd_int mmax = false -> nd_int bf = false ->
  not_python_zero mmin -> not_python_zero mmax ->
  (nd_py mmin = true -> nd_py mmax = true -> nd_py bf = true -> fadd l (fmul f (fsub h l)) <> Fin 0) ->
  nd_int mass = false \/ nd_int alpha_1 = false -> nd_int mass = false \/ nd_int alpha_2 = false ->
  agree s (double_power_law_primary_mass_nd bk mass alpha_1 alpha_2 mmin mmax bf) (fun i => double_power_law_primary_mass bk (g i) a1 a2 l h f).
Proof.
  intros Cm C1 C2 Cl Ch Cf F1 F2 Fl Fh Ff Zl Zh Zb N1 N2. unfold double_power_law_primary_mass_nd, double_power_law_primary_mass.
  set (mb := fadd l (fmul f (fsub h l))) in *. unfold nop at 1 2 3.
  edestruct (fun py int => map2_ss bk py int fsub _ _ _ _ Ch Cl) as (r1 & -> & P1 & I1 & D1). cbn [bind].
  edestruct (fun py int => map2_ss bk py int fmul _ _ _ _ Cf D1) as (r2 & -> & P2 & I2 & D2). cbn [bind].
  edestruct (fun py int => map2_ss bk py int fadd _ _ _ _ Cl D2) as (b & -> & Pb & Ib & Db). cbn [bind]. fold mb in Db.
  assert (IB : nd_int b = false) by (rewrite Ib, I2, Ff; apply andb_false_r).
  assert (ZB : not_python_zero b).
  { intros P. rewrite Pb, P2, P1 in P. apply andb_true_iff in P as [Q1 P]. apply andb_true_iff in P as [Q2 P]. apply andb_true_iff in P as [Q3 _].
    unfold value. rewrite (proj2 Db). now apply Zb. }
  assert (M1 := neg_sc _ _ C1). assert (M2 := neg_sc _ _ C2).
  assert (Bc : col [] b (fun _ => mb)). { split; [apply Db|]. intros i I. inversion I. apply Db. }
  apply (agree_bind_scalar s _ (powerlaw bk pl_kw mb (fopp a2) h mb) _ (fun i c => _)).
  { apply (powerlaw_agree bk [] b (fun _ => mb) (nneg alpha_2) (fopp a2) mmax h b mb); auto. apply pl_params; auto. }
  intros cn x Cn Pn. apply (agree_bind_scalar s _ (powerlaw bk pl_kw mb (fopp a1) mb l) _ (fun i c => _)).
  { apply (powerlaw_agree bk [] b (fun _ => mb) (nneg alpha_1) (fopp a1) b mb mmin l); auto. apply pl_params; auto. }
  intros cd y Cd Pd. rewrite divide_lib by auto. edestruct (fun py int => map2_ss bk py int fdiv _ _ _ _ Cn Cd) as (co & -> & Pco & _ & Co). cbn [bind].
  apply (agree_bind s _ (fun i => powerlaw bk pl_kw (g i) (fopp a1) mb l) _ (fun i c => _)).
  { apply (powerlaw_agree bk s mass g (nneg alpha_1) (fopp a1) b mb mmin l); auto. apply pl_params; auto. }
  intros lp u Clp Plp. apply (agree_bind s _ (fun i => powerlaw bk pl_kw (g i) (fopp a2) h mb) _ (fun i c => _)).
  { apply (powerlaw_agree bk s mass g (nneg alpha_2) (fopp a2) mmax h b mb); auto. apply pl_params; auto. }
  intros hp v Chp Php. unfold nlt, nge, nmask, nop.
  edestruct (fun py int => map2_cs bk py int flt s _ _ _ _ Cm Db) as (lt & -> & _ & _ & Clt). cbn [bind].
  edestruct (fun py int => map2_cc bk py int (fun x (c : bool) => fmul x (of_bool c)) s _ _ _ _ Clp Clt) as (q1 & -> & _ & _ & K1). cbn [bind].
  edestruct (fun py int => map2_cs bk py int fmul s _ _ _ _ K1 Co) as (q2 & -> & _ & _ & K2). cbn [bind].
  edestruct (fun py int => map2_cs bk py int fge s _ _ _ _ Cm Db) as (ge & -> & _ & _ & Cge). cbn [bind].
  edestruct (fun py int => map2_cc bk py int (fun x (c : bool) => fmul x (of_bool c)) s _ _ _ _ Chp Cge) as (q3 & -> & _ & _ & K3). cbn [bind].
  edestruct (fun py int => map2_cc bk py int fadd s _ _ _ _ K2 K3) as (q4 & -> & _ & _ & K4). cbn [bind].
  edestruct (fun py int => map2_ss bk py int fadd _ _ _ _ (py_sc (Fin 1)) Co) as (to & -> & Pto & _ & Cto). cbn [bind].
  rewrite divide_lib by (right; rewrite Pto, Pco; reflexivity).
  edestruct (fun py int => map2_cs bk py int fdiv s _ _ _ _ K4 Cto) as (q5 & -> & P5 & _ & K5).
  now apply (agree_ok s q5 _ _ K5 P5).
Qed.
Lemma ratio_agree bk s m1 g q k beta b mmin l : col s m1 g -> col s q k -> sc beta b -> sc mmin l -> nd_py m1 = false ->
  nd_int q = false \/ nd_int beta = false -> nd_py beta = true \/ nd_int beta = false ->
  agree s (mass_ratio_factor_nd bk m1 q beta mmin) (fun i => mass_ratio_factor bk (g i) (k i) b l).
Proof.
  intros C1 Cq Cb Cl P1 N F. unfold mass_ratio_factor_nd, mass_ratio_factor. rewrite divide_lib by auto.
  edestruct (fun py int => map2_sc bk py int fdiv s _ _ _ _ Cl C1) as (r & -> & P & J & C). cbn [bind].
  apply (powerlaw_agree_low bk s q k beta b (py_int (Fin 1)) (Fin 1) r (fun i => fdiv l (g i))); auto using py_sc. split.
  - intros x [<-|[<-|[]]] Q; [cbn; intros E; injection E; lra|congruence].
  - destruct N as [N|N]; [|auto]. destruct F as [F|F]; [|auto]. right. split; [exact N|]. intros x [<-|[<-|[]]]; auto.
Qed.
Lemma general_agree bk s m1 g m2 h p1 u p2 v : col s m1 g -> col s m2 h -> col s p1 u -> col s p2 v -> nd_py p1 = false ->
  agree s (primary_secondary_general_nd bk m1 m2 p1 p2) (fun i => Ok (primary_secondary_general (g i) (h i) (u i) (v i))).
Proof.
  intros C1 C2 D1 D2 P1. unfold primary_secondary_general_nd, primary_secondary_general, nop, nge, nmask.
  edestruct (fun py int => map2_cc bk py int fmul s _ _ _ _ D1 D2) as (q1 & -> & _ & _ & K1). cbn [bind].
  edestruct (fun py int => map2_cc bk py int fge s _ _ _ _ C1 C2) as (ge & -> & _ & _ & Cge). cbn [bind].
  edestruct (fun py int => map2_cc bk py int (fun x (c : bool) => fmul x (of_bool c)) s _ _ _ _ K1 Cge) as (q2 & -> & P2 & _ & K2). cbn [bind].
  edestruct (fun py int => map2_cs bk py int fmul s _ _ _ _ K2 (py_sc (Fin 2))) as (q3 & -> & P3 & _ & K3).
  apply (agree_ok s q3 _ _ K3); [rewrite P3, P2; reflexivity|reflexivity].
Qed.
Lemma product_agree bk s r f r' f' : agree s r f -> agree s r' f' ->
  agree s (bind r (fun p => bind r' (fun q => nop bk fmul p q))) (fun i => bind (f i) (fun p => bind (f' i) (fun q => Ok (fmul p q)))).
Proof.
  intros H H'. apply (agree_bind s r f _ (fun i p => bind (f' i) (fun q => Ok (fmul p q))) H). intros y g C P.
  apply (agree_bind s r' f' _ (fun i q => Ok (fmul (g i) q)) H'). intros z h D Q. unfold nop.
  edestruct (fun py int => map2_cc bk py int fmul s _ _ _ _ C D) as (w & -> & Pw & _ & K). apply (agree_ok s w _ _ K); [rewrite Pw, P; reflexivity|reflexivity].
Qed.
Lemma two_agree bk s mass g alpha a mmin l mmax h lam x mpp m sigpp d gmax gm :
  col s mass g -> sc alpha a -> sc mmin l -> sc mmax h -> sc lam x -> sc mpp m -> sc sigpp d -> sc gmax gm ->
  nd_int mass = false \/ nd_int alpha = false -> nd_py alpha = true \/ nd_int alpha = false -> nd_py mmin = true \/ nd_int mmin = false ->
  nd_py mmax = true \/ nd_int mmax = false -> not_python_zero mmin -> not_python_zero mmax ->
  agree s (two_component_single_nd bk mass alpha mmin mmax lam mpp sigpp gmax) (fun i => two_component_single bk (g i) a l h x m d gm).
Proof.
  intros Cm Ca Cl Ch Cx Cp Cs Cg N Fa Fl Fh Zl Zh. unfold two_component_single_nd, two_component_single.
  apply (agree_bind s _ (fun i => powerlaw bk pl_kw (g i) (fopp a) h l) _ (fun i c => _)).
  { apply powerlaw_agree; auto using neg_sc. now apply pl_params. }
  intros pp u Cpp Ppp. apply (agree_bind s _ (fun i => truncnorm bk tn_kw (g i) m d gm l) _ (fun i c => _)).
  { apply truncnorm_agree; auto. }
  intros pn v Cpn Ppn. now apply mixture_agree.
Qed.
Lemma magnitude_agree bk s a_1 g a_2 h al1 al1v al2 al2v be1 be1v be2 be2v am1 am1v am2 am2v :
  col s a_1 g -> col s a_2 h -> sc al1 al1v -> sc al2 al2v -> sc be1 be1v -> sc be2 be2v -> sc am1 am1v -> sc am2 am2v ->
  agree s (independent_spin_magnitude_beta_nd bk a_1 a_2 al1 al2 be1 be2 am1 am2) (fun i => independent_spin_magnitude_beta bk (g i) (h i) al1v al2v be1v be2v am1v am2v).
Proof.
  intros. unfold independent_spin_magnitude_beta_nd, independent_spin_magnitude_beta.
  apply (product_agree bk s _ (fun i => beta_dist bk _ (g i) _ _ _) _ (fun i => beta_dist bk _ (h i) _ _ _)); now apply beta_agree.
Qed.
Lemma orientation_agree bk s c_1 g c_2 h xi x s1 s1v s2 s2v m1 m1v m2 m2v :
  col s c_1 g -> col s c_2 h -> sc xi x -> sc s1 s1v -> sc s2 s2v -> sc m1 m1v -> sc m2 m2v ->
  agree s (independent_spin_orientation_gaussian_isotropic_nd bk c_1 c_2 xi s1 s2 m1 m2)
    (fun i => independent_spin_orientation_gaussian_isotropic bk (g i) (h i) x s1v s2v m1v m2v).
Proof.
  intros C1 C2 Cx S1 S2 M1 M2. unfold independent_spin_orientation_gaussian_isotropic_nd, independent_spin_orientation_gaussian_isotropic. unfold nop at 1.
  edestruct (fun py int => map2_ss bk py int fsub _ _ _ _ (py_sc (Fin 1)) Cx) as (r1 & -> & P1 & I1 & D1). cbn [bind]. rewrite divide_four.
  edestruct (fun py int => map2_ss bk py int fdiv _ _ _ _ D1 (py_sc (Fin 4))) as (r2 & -> & _ & _ & D2). cbn [bind].
  apply (agree_bind s _ (fun i => truncnorm bk [] (g i) m1v s1v (Fin 1) (Fin (-1))) _ (fun i c => _)); [apply truncnorm_agree; auto using py_sc|].
  intros t1 u T1 Q1. unfold nop at 1. edestruct (fun py int => map2_sc bk py int fmul s _ _ _ _ Cx T1) as (r3 & -> & P3 & _ & D3). cbn [bind].
  apply (agree_bind s _ (fun i => truncnorm bk [] (h i) m2v s2v (Fin 1) (Fin (-1))) _ (fun i c => _)); [apply truncnorm_agree; auto using py_sc|].
  intros t2 v T2 Q2. unfold nop. edestruct (fun py int => map2_cc bk py int fmul s _ _ _ _ D3 T2) as (r4 & -> & P4 & _ & D4). cbn [bind].
  edestruct (fun py int => map2_sc bk py int fadd s _ _ _ _ D2 D4) as (r5 & -> & P5 & _ & D5).
  apply (agree_ok s r5 _ _ D5); [rewrite P5, P4, Q2, !andb_false_r; reflexivity|reflexivity].
Qed.
Lemma C148_mass_single_partial_pf :
  forall bk s mass alpha alpha_1 alpha_2 mmin mmax break_fraction lam lam_1 mpp sigpp mpp_2 sigpp_2 gmax,
  column s mass -> Forall parameter [alpha; alpha_1; alpha_2; mmin; mmax; break_fraction; lam; lam_1; mpp; sigpp; mpp_2; sigpp_2; gmax] ->
  not_both_integers mass alpha -> not_both_integers mass alpha_1 -> not_both_integers mass alpha_2 -> not_python_zero mmin -> not_python_zero mmax ->
  elementwise (power_law_mass_nd bk mass alpha mmin mmax) s (fun i => power_law_mass bk (nd_at mass i) (value alpha) (value mmin) (value mmax)) /\
  elementwise (two_component_single_nd bk mass alpha mmin mmax lam mpp sigpp gmax) s
    (fun i => two_component_single bk (nd_at mass i) (value alpha) (value mmin) (value mmax) (value lam) (value mpp) (value sigpp) (value gmax)) /\
  elementwise (three_component_single_nd bk mass alpha mmin mmax lam lam_1 mpp sigpp mpp_2 sigpp_2 gmax) s
    (fun i => three_component_single bk (nd_at mass i) (value alpha) (value mmin) (value mmax) (value lam) (value lam_1) (value mpp) (value sigpp)
       (value mpp_2) (value sigpp_2) (value gmax)) /\
  (nd_int break_fraction = false ->
   (nd_py mmin && nd_py mmax && nd_py break_fraction = true -> fadd (value mmin) (fmul (value break_fraction) (fsub (value mmax) (value mmin))) <> Fin 0) ->
   elementwise (double_power_law_primary_mass_nd bk mass alpha_1 alpha_2 mmin mmax break_fraction) s
     (fun i => double_power_law_primary_mass bk (nd_at mass i) (value alpha_1) (value alpha_2) (value mmin) (value mmax) (value break_fraction)) /\
   elementwise (double_power_law_peak_primary_mass_nd bk mass alpha_1 alpha_2 mmin mmax break_fraction lam mpp sigpp gmax) s
     (fun i => double_power_law_peak_primary_mass bk (nd_at mass i) (value alpha_1) (value alpha_2) (value mmin) (value mmax) (value break_fraction)
        (value lam) (value mpp) (value sigpp) (value gmax))).
Proof.
  intros bk s mass alpha alpha_1 alpha_2 mmin mmax bf lam lam_1 mpp sigpp mpp_2 sigpp_2 gmax Cm F N N1 N2 Zl Zh.
  repeat match goal with H : Forall _ (_ :: _) |- _ => apply Forall_cons_iff in H as [? H] end. clear F.
  assert (Cc := column_col s mass Cm).
  repeat match goal with H : parameter ?p |- _ => assert (sc p (value p)) by (now apply parameter_sc); apply parameter_flag in H end.
  split; [|split; [|split]].
  - apply agree_elementwise. unfold power_law_mass_nd, power_law_mass. apply powerlaw_agree; auto using neg_sc. now apply pl_params.
  - apply agree_elementwise. now apply two_agree.
  - apply agree_elementwise. unfold three_component_single_nd, three_component_single.
    apply (agree_bind s _ (fun i => powerlaw bk pl_kw (nd_at mass i) (fopp (value alpha)) (value mmax) (value mmin)) _ (fun i c => _)).
    { apply powerlaw_agree; auto using neg_sc. now apply pl_params. }
    intros pp u Cpp Ppp. apply (agree_bind s _ (fun i => truncnorm bk tn_kw (nd_at mass i) (value mpp) (value sigpp) (value gmax) (value mmin)) _ (fun i c => _)).
    { apply truncnorm_agree; auto. }
    intros pn v Cpn Ppn. apply (agree_bind s _ (fun i => truncnorm bk tn_kw (nd_at mass i) (value mpp_2) (value sigpp_2) (value gmax) (value mmin)) _ (fun i c => _)).
    { apply truncnorm_agree; auto. }
    intros po w Cpo Ppo. unfold nop. assert (Cl : sc lam (value lam)) by assumption. assert (Cl1 : sc lam_1 (value lam_1)) by assumption.
    edestruct (fun py int => map2_ss bk py int fsub _ _ _ _ (py_sc (Fin 1)) Cl) as (r1 & -> & _ & _ & D1). cbn [bind].
    edestruct (fun py int => map2_sc bk py int fmul s _ _ _ _ D1 Cpp) as (r2 & -> & _ & _ & D2). cbn [bind].
    edestruct (fun py int => map2_ss bk py int fmul _ _ _ _ Cl Cl1) as (r3 & -> & _ & _ & D3). cbn [bind].
    edestruct (fun py int => map2_sc bk py int fmul s _ _ _ _ D3 Cpn) as (r4 & -> & _ & _ & D4). cbn [bind].
    edestruct (fun py int => map2_cc bk py int fadd s _ _ _ _ D2 D4) as (r5 & -> & _ & _ & D5). cbn [bind].
    edestruct (fun py int => map2_ss bk py int fsub _ _ _ _ (py_sc (Fin 1)) Cl1) as (r6 & -> & _ & _ & D6). cbn [bind].
    edestruct (fun py int => map2_ss bk py int fmul _ _ _ _ Cl D6) as (r7 & -> & _ & _ & D7). cbn [bind].
    edestruct (fun py int => map2_sc bk py int fmul s _ _ _ _ D7 Cpo) as (r8 & -> & P8 & _ & D8). cbn [bind].
    edestruct (fun py int => map2_cc bk py int fadd s _ _ _ _ D5 D8) as (r9 & -> & P9 & _ & D9).
    apply (agree_ok s r9 _ _ D9); [rewrite P9, P8, Ppo, !andb_false_r; reflexivity|reflexivity].
  - intros Fb Zb. assert (D : agree s (double_power_law_primary_mass_nd bk mass alpha_1 alpha_2 mmin mmax bf)
      (fun i => double_power_law_primary_mass bk (nd_at mass i) (value alpha_1) (value alpha_2) (value mmin) (value mmax) (value bf))).
    { apply dpl_agree; auto. intros Q1 Q2 Q3. apply Zb. now rewrite Q1, Q2, Q3. }
    split; [now apply agree_elementwise|]. apply agree_elementwise. unfold double_power_law_peak_primary_mass_nd, double_power_law_peak_primary_mass.
    apply (agree_bind s _ _ _ (fun i c => _) D). intros pp u Cpp Ppp.
    apply (agree_bind s _ (fun i => truncnorm bk tn_kw (nd_at mass i) (value mpp) (value sigpp) (value gmax) (value mmin)) _ (fun i c => _)).
    { apply truncnorm_agree; auto. }
    intros pn v Cpn Ppn. now apply mixture_agree.
Qed.

Lemma C148_mass_joint_partial_pf :
  forall bk s m1 m2 q alpha alpha_1 alpha_2 beta mmin mmax break_fraction lam mpp sigpp gmax,
  Forall (column s) [m1; m2; q] -> Forall parameter [alpha; alpha_1; alpha_2; beta; mmin; mmax; break_fraction; lam; mpp; sigpp; gmax] ->
  not_both_integers m1 alpha -> not_both_integers m1 alpha_1 -> not_both_integers m1 alpha_2 -> not_python_zero mmin -> not_python_zero mmax ->
  (not_both_integers q beta ->
   elementwise (power_law_primary_mass_ratio_nd bk m1 q alpha beta mmin mmax) s
     (fun i => power_law_primary_mass_ratio bk (nd_at m1 i) (nd_at q i) (value alpha) (value beta) (value mmin) (value mmax)) /\
   elementwise (two_component_primary_mass_ratio_nd bk m1 q alpha beta mmin mmax lam mpp sigpp gmax) s
     (fun i => two_component_primary_mass_ratio bk (nd_at m1 i) (nd_at q i) (value alpha) (value beta) (value mmin) (value mmax) (value lam) (value mpp)
        (value sigpp) (value gmax)) /\
   (nd_int break_fraction = false ->
    (nd_py mmin && nd_py mmax && nd_py break_fraction = true -> fadd (value mmin) (fmul (value break_fraction) (fsub (value mmax) (value mmin))) <> Fin 0) ->
    elementwise (double_power_law_primary_power_law_mass_ratio_nd bk m1 q alpha_1 alpha_2 beta mmin mmax break_fraction) s
      (fun i => double_power_law_primary_power_law_mass_ratio bk (nd_at m1 i) (nd_at q i) (value alpha_1) (value alpha_2) (value beta) (value mmin) (value mmax)
         (value break_fraction)))) /\
  (not_both_integers m2 beta ->
   elementwise (power_law_primary_secondary_independent_nd bk m1 m2 alpha beta mmin mmax) s
     (fun i => power_law_primary_secondary_independent bk (nd_at m1 i) (nd_at m2 i) (value alpha) (value beta) (value mmin) (value mmax)) /\
   elementwise (two_component_primary_secondary_independent_nd bk m1 m2 alpha beta mmin mmax lam mpp sigpp gmax) s
     (fun i => two_component_primary_secondary_independent bk (nd_at m1 i) (nd_at m2 i) (value alpha) (value beta) (value mmin) (value mmax) (value lam)
        (value mpp) (value sigpp) (value gmax))) /\
  (not_both_integers m2 alpha ->
   elementwise (power_law_primary_secondary_identical_nd bk m1 m2 alpha mmin mmax) s
     (fun i => power_law_primary_secondary_identical bk (nd_at m1 i) (nd_at m2 i) (value alpha) (value mmin) (value mmax)) /\
   elementwise (two_component_primary_secondary_identical_nd bk m1 m2 alpha mmin mmax lam mpp sigpp gmax) s
     (fun i => two_component_primary_secondary_identical bk (nd_at m1 i) (nd_at m2 i) (value alpha) (value mmin) (value mmax) (value lam)
        (value mpp) (value sigpp) (value gmax))).
Proof.
  intros bk s m1 m2 q alpha alpha_1 alpha_2 beta mmin mmax bf lam mpp sigpp gmax Fc F N N1 N2 Zl Zh.
  repeat match goal with H : Forall _ (_ :: _) |- _ => apply Forall_cons_iff in H as [? H] end. clear F Fc.
  assert (P1 : nd_py m1 = false) by (match goal with H : column s m1 |- _ => apply H end).
  repeat match goal with H : column s ?p |- _ => assert (col s p (nd_at p)) by (now apply column_col); clear H end.
  repeat match goal with H : parameter ?p |- _ => assert (sc p (value p)) by (now apply parameter_sc); apply parameter_flag in H end.
  assert (RQ : not_both_integers q beta -> agree s (mass_ratio_factor_nd bk m1 q beta mmin) (fun i => mass_ratio_factor bk (nd_at m1 i) (nd_at q i) (value beta) (value mmin))) by (intros N5; now apply ratio_agree).
  assert (T : forall m a x l p d g, col s m (nd_at m) -> sc a (value a) -> sc l x -> nd_int m = false \/ nd_int a = false -> nd_py a = true \/ nd_int a = false ->
    forall p' d' g', sc p p' -> sc d d' -> sc g g' ->
    agree s (two_component_single_nd bk m a mmin mmax l p d g) (fun i => two_component_single bk (nd_at m i) (value a) (value mmin) (value mmax) x p' d' g')).
  { intros m a x l p d g M A L NN FF p' d' g' HP HD HG. now apply two_agree. }
  assert (PI : forall a b, sc a (value a) -> sc b (value b) -> nd_int m1 = false \/ nd_int a = false -> nd_int m2 = false \/ nd_int b = false ->
    nd_py a = true \/ nd_int a = false -> nd_py b = true \/ nd_int b = false ->
    agree s (power_law_primary_secondary_independent_nd bk m1 m2 a b mmin mmax)
      (fun i => power_law_primary_secondary_independent bk (nd_at m1 i) (nd_at m2 i) (value a) (value b) (value mmin) (value mmax))).
  { intros a b A B NA NB FA FB. unfold power_law_primary_secondary_independent_nd, power_law_primary_secondary_independent.
    apply (agree_bind s _ (fun i => powerlaw bk [] (nd_at m1 i) (fopp (value a)) (value mmax) (value mmin)) _ (fun i c => _)).
    { apply powerlaw_agree; auto using neg_sc. now apply pl_params. }
    intros pa u Ca Pa. apply (agree_bind s _ (fun i => powerlaw bk [] (nd_at m2 i) (fopp (value b)) (value mmax) (value mmin)) _ (fun i c => _)).
    { apply powerlaw_agree; auto using neg_sc. now apply pl_params. }
    intros pb v Cb Pb. now apply general_agree. }
  assert (TI : forall a b, sc a (value a) -> sc b (value b) -> nd_int m1 = false \/ nd_int a = false -> nd_int m2 = false \/ nd_int b = false ->
    nd_py a = true \/ nd_int a = false -> nd_py b = true \/ nd_int b = false ->
    agree s (two_component_primary_secondary_independent_nd bk m1 m2 a b mmin mmax lam mpp sigpp gmax)
      (fun i => two_component_primary_secondary_independent bk (nd_at m1 i) (nd_at m2 i) (value a) (value b) (value mmin) (value mmax) (value lam) (value mpp)
         (value sigpp) (value gmax))).
  { intros a b A B NA NB FA FB. unfold two_component_primary_secondary_independent_nd, two_component_primary_secondary_independent.
    apply (agree_bind s _ (fun i => two_component_single bk (nd_at m1 i) (value a) (value mmin) (value mmax) (value lam) (value mpp) (value sigpp) (value gmax)) _ (fun i c => _)).
    { now apply T. }
    intros pa u Ca Pa. apply (agree_bind s _ (fun i => two_component_single bk (nd_at m2 i) (value b) (value mmin) (value mmax) (value lam) (value mpp) (value sigpp) (value gmax)) _ (fun i c => _)).
    { now apply T. }
    intros pb v Cb Pb. now apply general_agree. }
  split; [intros N5; split; [|split]|split; [intros N4; split|intros N3; split]].
  - apply agree_elementwise. unfold power_law_primary_mass_ratio_nd, power_law_primary_mass_ratio, two_component_primary_mass_ratio_nd, two_component_primary_mass_ratio.
    apply (product_agree bk s _ (fun i => two_component_single bk (nd_at m1 i) (value alpha) (value mmin) (value mmax) (Fin 0) (Fin 35) (Fin 1) (Fin 100)) _
      (fun i => mass_ratio_factor bk (nd_at m1 i) (nd_at q i) (value beta) (value mmin))); [|now apply RQ]. apply T; auto using py_sc.
  - apply agree_elementwise. unfold two_component_primary_mass_ratio_nd, two_component_primary_mass_ratio.
    apply (product_agree bk s _ (fun i => two_component_single bk (nd_at m1 i) (value alpha) (value mmin) (value mmax) (value lam) (value mpp) (value sigpp) (value gmax)) _
      (fun i => mass_ratio_factor bk (nd_at m1 i) (nd_at q i) (value beta) (value mmin))); [|now apply RQ]. now apply T.
  - intros Fb Zb. apply agree_elementwise. unfold double_power_law_primary_power_law_mass_ratio_nd, double_power_law_primary_power_law_mass_ratio.
    apply (product_agree bk s _ (fun i => double_power_law_primary_mass bk (nd_at m1 i) (value alpha_1) (value alpha_2) (value mmin) (value mmax) (value bf)) _
      (fun i => mass_ratio_factor bk (nd_at m1 i) (nd_at q i) (value beta) (value mmin))); [|now apply RQ].
    apply dpl_agree; auto. intros Q1 Q2 Q3. apply Zb. now rewrite Q1, Q2, Q3.
  - apply agree_elementwise. now apply PI.
  - apply agree_elementwise. now apply TI.
  - apply agree_elementwise. now apply PI.
  - apply agree_elementwise. now apply TI.
Qed.

Lemma C148_spin_pf :
  forall bk s a_1 a_2 cos_tilt_1 cos_tilt_2 chi xi_spin sigma_1 sigma_2 mu_1 mu_2 alpha_1 alpha_2 beta_1 beta_2 amax_1 amax_2,
  Forall (column s) [a_1; a_2; cos_tilt_1; cos_tilt_2; chi] ->
  Forall parameter [xi_spin; sigma_1; sigma_2; mu_1; mu_2; alpha_1; alpha_2; beta_1; beta_2; amax_1; amax_2] ->
  elementwise (independent_spin_magnitude_beta_nd bk a_1 a_2 alpha_1 alpha_2 beta_1 beta_2 amax_1 amax_2) s
    (fun i => independent_spin_magnitude_beta bk (nd_at a_1 i) (nd_at a_2 i) (value alpha_1) (value alpha_2) (value beta_1) (value beta_2) (value amax_1) (value amax_2)) /\
  elementwise (iid_spin_magnitude_beta_nd bk a_1 a_2 amax_1 alpha_1 beta_1) s
    (fun i => iid_spin_magnitude_beta bk (nd_at a_1 i) (nd_at a_2 i) (value amax_1) (value alpha_1) (value beta_1)) /\
  elementwise (independent_spin_orientation_gaussian_isotropic_nd bk cos_tilt_1 cos_tilt_2 xi_spin sigma_1 sigma_2 mu_1 mu_2) s
    (fun i => independent_spin_orientation_gaussian_isotropic bk (nd_at cos_tilt_1 i) (nd_at cos_tilt_2 i) (value xi_spin) (value sigma_1) (value sigma_2)
       (value mu_1) (value mu_2)) /\
  elementwise (iid_spin_orientation_gaussian_isotropic_nd bk cos_tilt_1 cos_tilt_2 xi_spin sigma_1 mu_1) s
    (fun i => iid_spin_orientation_gaussian_isotropic bk (nd_at cos_tilt_1 i) (nd_at cos_tilt_2 i) (value xi_spin) (value sigma_1) (value mu_1)) /\
  elementwise (iid_spin_nd bk a_1 a_2 cos_tilt_1 cos_tilt_2 xi_spin sigma_1 amax_1 alpha_1 beta_1) s
    (fun i => iid_spin bk (nd_at a_1 i) (nd_at a_2 i) (nd_at cos_tilt_1 i) (nd_at cos_tilt_2 i) (value xi_spin) (value sigma_1) (value amax_1) (value alpha_1)
       (value beta_1)) /\
  elementwise (gaussian_chi_eff_nd bk chi mu_1 sigma_1) s (fun i => gaussian_chi_eff bk (nd_at chi i) (value mu_1) (value sigma_1)) /\
  elementwise (gaussian_chi_p_nd bk chi mu_1 sigma_1) s (fun i => gaussian_chi_p bk (nd_at chi i) (value mu_1) (value sigma_1)).
Proof.
  intros bk s a_1 a_2 c_1 c_2 chi xi s1 s2 m1 m2 al1 al2 be1 be2 am1 am2 Fc F.
  repeat match goal with H : Forall _ (_ :: _) |- _ => apply Forall_cons_iff in H as [? H] end. clear F Fc.
  repeat match goal with H : column s ?p |- _ => assert (col s p (nd_at p)) by (now apply column_col); clear H end.
  repeat match goal with H : parameter ?p |- _ => assert (sc p (value p)) by (now apply parameter_sc); clear H end.
  repeat split; apply agree_elementwise.
  - now apply magnitude_agree.
  - now apply magnitude_agree.
  - now apply orientation_agree.
  - now apply orientation_agree.
  - unfold iid_spin_nd, iid_spin. apply (product_agree bk s _ (fun i => iid_spin_orientation_gaussian_isotropic bk (nd_at c_1 i) (nd_at c_2 i) (value xi) (value s1) (Fin 1)) _
      (fun i => iid_spin_magnitude_beta bk (nd_at a_1 i) (nd_at a_2 i) (value am1) (value al1) (value be1))); [apply orientation_agree; auto using py_sc|now apply magnitude_agree].
  - apply truncnorm_agree; auto using py_sc.
  - apply truncnorm_agree; auto using py_sc.
Qed.

Lemma C148_integers_and_zero_refuted_pf :
  (forall mass alpha mmin mmax, nd_int mass = true -> nd_int alpha = true -> nd_shape mass <> [] ->
   exists e, power_law_mass_nd Numpy mass alpha mmin mmax = Err e) /\
  (forall bk mass alpha mmin mmax, nd_py mmin = true -> nd_shape mmin = [] -> value mmin = Fin 0 -> nd_py mmax = true -> nd_shape alpha = [] ->
   (exists a, value alpha = Fin a /\ a <> (-1)%R) ->
   power_law_mass_nd bk mass alpha mmin mmax = Err ZeroDivisionError).
Proof.
  split.
  - intros mass alpha mmin mmax Im Ia Sm. unfold power_law_mass_nd, powerlaw_call, apply_conditions. cbn [is_jax].
    destruct (C145_powerlaw_integers_refuted_pf mass (nneg alpha) mmax mmin Im Ia Sm) as [e E].
    destruct (check_conditions _ _) as [[]|e']; cbn; [exists e; exact E|exists e'; reflexivity].
  - intros bk mass alpha mmin mmax Pl Sl Vl Ph Sa (a & Va & Na). unfold power_law_mass_nd, powerlaw_call, apply_conditions.
    assert (Z := C145_powerlaw_zero_refuted_pf bk mass (nneg alpha) mmax mmin Ph Pl Vl). rewrite Z.
    assert (E1 := elements_sc mmin (Fin 0) (conj Sl Vl)). assert (E2 := elements_sc (nneg alpha) _ (neg_sc alpha _ (conj Sa Va))).
    destruct (is_jax bk); [reflexivity|]. cbn -[elements nneg]. rewrite E1, E2. cbn.
    replace (fge (Fin 0) (Fin 0)) with true by (symmetry; unfold fge, fle; apply orb_true_iff; right; cbn; unfold Reqb; destruct (Req_EM_T 0 0); [reflexivity|lra]).
    replace (fne (Fin (- a)) (Fin 1)) with true; [reflexivity|]. symmetry. unfold fne. cbn. unfold Reqb. destruct (Req_EM_T (- a) 1) as [N|_]; [lra|reflexivity].
Qed.

Lemma in_indices s i : In i (indices s) <-> inside s i.
Proof.
  revert i. induction s as [|n s IH]; intros i; cbn.
  - split; [intros [<-|[]]; constructor|]. intros H. inversion H. now left.
  - rewrite in_flat_map. split.
    + intros (j & J & I). apply in_seq in J. apply in_map_iff in I as (k & <- & K). constructor; [lia|]. now apply IH.
    + intros H. inversion H as [|j m k t L K]; subst. exists j. split; [apply in_seq; lia|]. apply in_map, IH, K.
Qed.
Lemma elements_all (op : xf -> xf -> bool) c (a : nd xf) : forallb (fun v => op v c) (elements a) = true <-> forall i, inside (nd_shape a) i -> op (nd_at a i) c = true.
Proof.
  unfold elements. rewrite forallb_forall. split.
  - intros H i I. apply H, in_map, in_indices, I.
  - intros H x X. apply in_map_iff in X as (i & <- & I). apply H, in_indices, I.
Qed.
Lemma C148_checks_pf :
  forall bk,
  (forall xx mu sigma high low, let bad := exists i, inside (nd_shape sigma) i /\ fgt (nd_at sigma i) (Fin 0) = false in
   (bk <> Jax -> bad -> truncnorm_call bk tn_kw xx mu sigma high low = Err ValueError) /\
   (bk = Jax \/ ~ bad -> truncnorm_call bk tn_kw xx mu sigma high low = truncnorm_nd bk xx mu sigma high low) /\
   truncnorm_call bk [] xx mu sigma high low = truncnorm_nd bk xx mu sigma high low) /\
  (forall xx alpha high low,
   let bad := (exists i, inside (nd_shape low) i /\ fge (nd_at low i) (Fin 0) = false) \/ (exists i, inside (nd_shape alpha) i /\ nd_at alpha i = Fin 1) in
   (bk <> Jax -> bad -> powerlaw_call bk pl_kw xx alpha high low = Err ValueError) /\
   (bk = Jax \/ ~ bad -> powerlaw_call bk pl_kw xx alpha high low = powerlaw_nd bk xx alpha high low) /\
   powerlaw_call bk [] xx alpha high low = powerlaw_nd bk xx alpha high low).
Proof.
  intros bk. assert (ONE : forall x, fne x (Fin 1) = true <-> x <> Fin 1).
  { intros x. unfold fne. rewrite negb_true_iff. destruct x as [x| | |]; cbn; try (split; [discriminate|reflexivity]). unfold Reqb.
    destruct (Req_EM_T x 1) as [->|N]; split; try reflexivity; try discriminate; [now intros []|]. intros _ E. injection E as E. contradiction. }
  split.
  - intros xx mu sigma high low bad. unfold truncnorm_call, apply_conditions.
    assert (E : check_conditions truncnorm_conds (kwargs_nd tn_kw [("xx"%string, xx); ("mu"%string, mu); ("sigma"%string, sigma); ("high"%string, high); ("low"%string, low)]) =
      bind (if forallb (fun v => fgt v (Fin 0)) (elements sigma) then Ok tt else Err ValueError) (fun _ => Ok tt)) by reflexivity. rewrite E.
    assert (EA := elements_all fgt (Fin 0) sigma). split; [|split].
    + intros NJ (i & I & B). replace (is_jax bk) with false by (destruct bk; [reflexivity|reflexivity|now destruct NJ]).
      destruct (forallb _ _) eqn:F; [|reflexivity]. rewrite (proj1 EA eq_refl i I) in B. discriminate.
    + intros H. destruct (is_jax bk) eqn:J; [reflexivity|]. destruct H as [H|H]; [subst bk; discriminate|]. replace (forallb _ _) with true; [reflexivity|].
      symmetry. apply EA. intros i I. destruct (fgt (nd_at sigma i) (Fin 0)) eqn:F; [reflexivity|]. destruct H. now exists i.
    + now destruct (is_jax bk).
  - intros xx alpha high low bad. unfold powerlaw_call, apply_conditions.
    assert (E : check_conditions powerlaw_conds (kwargs_nd pl_kw [("xx"%string, xx); ("alpha"%string, alpha); ("high"%string, high); ("low"%string, low)]) =
      bind (if forallb (fun v => fge v (Fin 0)) (elements low) then Ok tt else Err ValueError) (fun _ =>
      bind (if forallb (fun v => fne v (Fin 1)) (elements alpha) then Ok tt else Err ValueError) (fun _ => Ok tt))) by reflexivity. rewrite E.
    assert (EL := elements_all fge (Fin 0) low). assert (EA := elements_all fne (Fin 1) alpha). split; [|split].
    + intros NJ B. replace (is_jax bk) with false by (destruct bk; [reflexivity|reflexivity|now destruct NJ]).
      destruct (forallb (fun v => fge v (Fin 0)) _) eqn:F; [|reflexivity]. destruct (forallb (fun v => fne v (Fin 1)) _) eqn:G; [|reflexivity].
      destruct B as [(i & I & B)|(i & I & B)]; [rewrite (proj1 EL eq_refl i I) in B; discriminate|]. apply (proj1 EA eq_refl) in I. now apply ONE in I.
    + intros H. destruct (is_jax bk) eqn:J; [reflexivity|]. destruct H as [H|H]; [subst bk; discriminate|].
      replace (forallb (fun v => fge v (Fin 0)) _) with true; [replace (forallb (fun v => fne v (Fin 1)) _) with true; [reflexivity|]|]; symmetry.
      * apply EA. intros i I. apply ONE. intros B. apply H. right. now exists i.
      * apply EL. intros i I. destruct (fge (nd_at low i) (Fin 0)) eqn:F; [reflexivity|]. destruct H. left. now exists i.
    + now destruct (is_jax bk).
Qed.

