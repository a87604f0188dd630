(** Proofs of the property theorems stated in [Props_backend]. *)
From Coq Require Import String Ascii Bool Arith Lia.
From Coq Require Import List.
From Verif Require Import Py Py_facts St Backend_model SpecBackend.
Import ListNotations.
Local Open Scope string_scope.

(** ** Strings *)
Lemma without_cons c a s : without c (String a s) <-> a <> c /\ without c s.
Proof.
  split.
  - intros H. split; [intros ->; exact (H "" s eq_refl)|]. intros x y E. apply (H (String a x) y). simpl. now rewrite E.
  - intros [A B] x y E. destruct x as [|d x]; simpl in E; injection E as E1 E2; [congruence|]. exact (B x y E2).
Qed.
Lemma split_none c s : without c s -> split_on c s = [s].
Proof. induction s as [|a s IH]; [reflexivity|]. intros H. apply without_cons in H. destruct H as [A B]. cbn [split_on]. destruct (Ascii.eqb_spec a c); [congruence|]. now rewrite IH. Qed.
Lemma split_app c x y : without c x -> split_on c (x ++ String c y) = x :: split_on c y.
Proof.
  induction x as [|a x IH]; intros H; cbn [append split_on].
  - now rewrite Ascii.eqb_refl.
  - apply without_cons in H. destruct H as [A B]. destruct (Ascii.eqb_spec a c); [congruence|]. now rewrite IH.
Qed.
Lemma split_ne c s : split_on c s <> [].
Proof. destruct s as [|a s]; cbn [split_on]; [discriminate|]. destruct (Ascii.eqb a c); [discriminate|]. destruct (split_on c s); discriminate. Qed.
Lemma last_cons {A} (a : A) l d : l <> [] -> last (a :: l) d = last l d.
Proof. destruct l; [congruence|reflexivity]. Qed.
Lemma split_last c x y d : without c y -> last (split_on c (x ++ String c y)) d = y.
Proof.
  intros H. induction x as [|a x IH]; cbn [append split_on].
  - rewrite Ascii.eqb_refl, last_cons by apply split_ne. now rewrite split_none.
  - destruct (Ascii.eqb a c); [now rewrite last_cons by apply split_ne|]. destruct (split_on c (x ++ String c y)) as [|w l] eqn:E; [destruct (split_ne _ _ E)|].
    destruct l as [|w' l]; [|exact IH]. exfalso. clear -E. revert w E. induction x as [|b x IH]; intros w E; cbn [append split_on] in E.
    + rewrite Ascii.eqb_refl in E. injection E as _ E. exact (split_ne _ _ E).
    + destruct (Ascii.eqb b c); [injection E as _ E; exact (split_ne _ _ E)|]. destruct (split_on c (x ++ String c y)) as [|u l] eqn:Q; [exact (split_ne _ _ Q)|]. injection E as _ ->. exact (IH u eq_refl).
Qed.
Lemma rsplit_none c s : without c s -> rsplit_on c s = None.
Proof. induction s as [|a s IH]; [reflexivity|]. intros H. apply without_cons in H. destruct H as [A B]. cbn [rsplit_on]. rewrite IH by auto. destruct (Ascii.eqb_spec a c); [congruence|reflexivity]. Qed.
Lemma rsplit_app c x y : without c y -> rsplit_on c (x ++ String c y) = Some (x, y).
Proof. intros H. induction x as [|a x IH]; cbn [append rsplit_on]; [rewrite rsplit_none by auto; now rewrite Ascii.eqb_refl|]. now rewrite IH. Qed.
Lemma prefix_true w s : String.prefix w s = true -> exists r, s = w ++ r.
Proof.
  revert s. induction w as [|a w IH]; intros s H; [exists s; reflexivity|]. destruct s as [|b s]; [discriminate|]. cbn [String.prefix] in H. destruct (ascii_dec a b) as [->|]; [|discriminate]. destruct (IH s H) as [r ->]. exists r. reflexivity.
Qed.
Lemma prefix_app w r : String.prefix w (w ++ r) = true.
Proof. induction w as [|a w IH]; [destruct r; reflexivity|]. cbn [append String.prefix]. destruct (ascii_dec a a); [exact IH|congruence]. Qed.
Lemma drop_app w r : drop (String.length w) (w ++ r) = r.
Proof. induction w as [|a w IH]; [destruct r; reflexivity|]. exact IH. Qed.
Lemma free_tail w a s : free_of w (String a s) -> free_of w s.
Proof. intros H x y E. apply (H (String a x) y). simpl. now rewrite E. Qed.
Lemma replace_free n old new s : free_of old s -> replace_fuel n old new s = s.
Proof.
  revert s. induction n as [|n IH]; intros s H; [reflexivity|]. cbn [replace_fuel]. destruct (String.prefix old s) eqn:E.
  - exfalso. apply prefix_true in E. destruct E as [r ->]. exact (H "" r eq_refl).
  - destruct s as [|a s]; [reflexivity|]. rewrite IH by (now apply free_tail in H). reflexivity.
Qed.
Lemma replace_head old new r : free_of old r -> replace old new (old ++ r) = new ++ r.
Proof. intros H. unfold replace. cbn [replace_fuel]. rewrite prefix_app, drop_app. now rewrite replace_free. Qed.
Lemma app_assoc_s a b c : (a ++ b) ++ c = a ++ b ++ c.
Proof. induction a as [|x a IH]; [reflexivity|]. cbn [append]. now rewrite IH. Qed.
(** ** Updates *)
Lemma libs_lookup b np sp : libraries b np sp -> dlookup b np_module = Ok np /\ dlookup b scipy_module = Ok sp /\ existsb (String.eqb b) SUPPORTED_BACKENDS = true.
Proof. intros []; repeat split. Qed.
Lemma libs_supported b : existsb (String.eqb b) SUPPORTED_BACKENDS = true -> exists np sp, libraries b np sp.
Proof.
  intros H. apply existsb_exists in H. destruct H as (x & I & E). apply String.eqb_eq in E. subst x. destruct I as [<-|[<-|[<-|[]]]]; do 2 eexists; constructor.
Qed.
Lemma libs_fun b np sp np' sp' : libraries b np sp -> libraries b np' sp' -> np = np' /\ sp = sp'.
Proof. intros H H'. destruct H; inversion H'; auto. Qed.
Lemma load_ok e b np sp : libraries b np sp -> (importable e b <-> load e b = Ok (Module np, Member sp "special")).
Proof.
  intros H. destruct (libs_lookup b np sp H) as (A & B & _). unfold load. rewrite A, B. cbn [bind]. unfold import_module, getattr. split.
  - intros (np' & sp' & H' & I1 & I2 & I3). destruct (libs_fun _ _ _ _ _ H H') as [<- <-]. rewrite I1, I2. cbn [bind]. now rewrite I3.
  - destruct (en_import e np) eqn:I1; [discriminate|]. cbn [bind]. destruct (en_import e sp) eqn:I2; [discriminate|]. cbn [bind]. destruct (en_has e sp "special") eqn:I3; [|discriminate]. intros _. exists np, sp. auto.
Qed.
Lemma load_value e b np sp v : libraries b np sp -> load e b = Ok v -> v = (Module np, Member sp "special").
Proof.
  intros H. destruct (libs_lookup b np sp H) as (A & B & _). unfold load. rewrite A, B. cbn [bind]. unfold import_module, getattr. destruct (en_import e np); [discriminate|]. cbn [bind]. destruct (en_import e sp); [discriminate|]. cbn [bind].
  destruct (en_has e sp "special"); [|discriminate]. cbn [bind]. congruence.
Qed.
Lemma set_all_ok e name v l : forall s s', set_all e name v l s = (s', Ok tt) ->
  st_backend s' = st_backend s /\ st_x64 s' = st_x64 s /\ forall m a, st_attr s' m a = if existsb (String.eqb m) l && String.eqb a name then Some v else st_attr s m a.
Proof.
  induction l as [|x l IH]; intros s s' H; cbn [set_all] in H.
  - injection H as <-. repeat split.
  - unfold sbind at 1, slift, import_module in H. destruct (en_import e x); [discriminate|]. unfold sbind, setattr in H. apply IH in H. cbn [st_backend st_x64 st_attr] in H. destruct H as (A & B & C). split; [auto|]. split; [auto|].
    intros m a. rewrite C. cbn [existsb]. destruct (existsb (String.eqb m) l); destruct (String.eqb m x); destruct (String.eqb a name); reflexivity.
Qed.
Lemma set_all_frame e name v l : forall s s' r, set_all e name v l s = (s', r) ->
  st_backend s' = st_backend s /\ st_x64 s' = st_x64 s /\ forall m a, (~ In m l \/ a <> name) -> st_attr s' m a = st_attr s m a.
Proof.
  induction l as [|x l IH]; intros s s' r H; cbn [set_all] in H.
  - injection H as <- <-. repeat split.
  - unfold sbind at 1, slift, import_module in H. destruct (en_import e x); [injection H as <- <-; repeat split|]. unfold sbind, setattr in H. apply IH in H. cbn [st_backend st_x64 st_attr] in H. destruct H as (A & B & C). split; [auto|]. split; [auto|].
    intros m a D. rewrite C by (destruct D; [left; intros I; apply H; now right|now right]). destruct (String.eqb_spec m x) as [->|]; [|reflexivity]. destruct (String.eqb_spec a name) as [->|]; [|reflexivity]. exfalso. destruct D as [D|D]; [apply D; now left|congruence].
Qed.
Lemma set_others_frame e b l : forall s s' r, set_others e b l s = (s', r) ->
  st_backend s' = st_backend s /\ st_x64 s' = st_x64 s /\ forall m a, (forall f, In (m, f) l -> a <> last (split_on dot f) "") -> st_attr s' m a = st_attr s m a.
Proof.
  induction l as [|[x f] l IH]; intros s s' r H; cbn [set_others] in H.
  - injection H as <- <-. repeat split.
  - unfold sbind at 1, slift at 1, import_module in H. destruct (en_import e x); [injection H as <- <-; repeat split|]. unfold sbind at 1, slift at 1 in H. destruct (load_arbitrary e f b) as [v|]; [|injection H as <- <-; repeat split].
    unfold sbind, setattr in H. apply IH in H. cbn [st_backend st_x64 st_attr] in H. destruct H as (A & B & C). split; [auto|]. split; [auto|]. intros m a D. rewrite C by (intros g I; apply D; now right).
    destruct (String.eqb_spec m x) as [->|]; [|reflexivity]. destruct (String.eqb_spec a (last (split_on dot f) "")) as [->|]; [|reflexivity]. exfalso. exact (D f (or_introl eq_refl) eq_refl).
Qed.
Lemma set_others_ok e b l : forall s s', NoDup (map fst l) -> set_others e b l s = (s', Ok tt) ->
  forall m f, In (m, f) l -> exists v, load_arbitrary e f b = Ok v /\ st_attr s' m (last (split_on dot f) "") = Some v.
Proof.
  induction l as [|[x g] l IH]; intros s s' ND H m f I; [destruct I|]. cbn [set_others] in H. cbn [map fst] in ND. inversion ND as [|? ? NI ND']; subst.
  unfold sbind at 1, slift at 1, import_module in H. destruct (en_import e x); [discriminate|]. unfold sbind at 1, slift at 1 in H. destruct (load_arbitrary e g b) as [v|] eqn:V; [|discriminate]. unfold sbind, setattr in H.
  destruct I as [E|I].
  - injection E as -> ->. exists v. split; [exact V|]. apply set_others_frame in H. destruct H as (_ & _ & C). rewrite C; [cbn [st_attr]; now rewrite !String.eqb_refl|]. intros f' I'. exfalso. apply NI. exact (in_map fst _ _ I').
  - exact (IH _ _ ND' H m f I).
Qed.
Lemma others_entries ps : forall d, (forall m f, In (m, f) ps -> without colon m /\ without colon f) ->
  others_dict (map (fun mf => entry (fst mf) (snd mf)) ps) d = Ok (fold_left (fun d mf => dset (fst mf) (snd mf) d) ps d).
Proof.
  induction ps as [|[m f] ps IH]; intros d H; [reflexivity|]. cbn [map others_dict fst snd fold_left]. destruct (H m f (or_introl eq_refl)) as [A B]. unfold entry at 1. change (":" ++ f) with (String colon f).
  rewrite split_app, split_none by auto. apply IH. intros m' f' I. apply H. now right.
Qed.
Lemma fold_nodup (ps : list (string * string)) : forall d, NoDup (map fst d ++ map fst ps)%list -> fold_left (fun d mf => dset (fst mf) (snd mf) d) ps d = (d ++ ps)%list.
Proof.
  induction ps as [|[m f] ps IH]; intros d H; [now rewrite app_nil_r|]. cbn [fold_left fst snd].
  assert (NM : ~ In m (map fst d)). { cbn [map fst] in H. apply NoDup_remove_2 in H. intros I. apply H. apply in_or_app. now left. }
  assert (E : dset m f d = (d ++ [(m, f)])%list). { clear -NM. induction d as [|[k v] d IHd]; [reflexivity|]. cbn [dset]. destruct (String.eqb_spec m k) as [->|]; [exfalso; apply NM; now left|]. cbn [app]. f_equal. apply IHd. intros I. apply NM. now right. }
  rewrite E, IH; [now rewrite <- app_assoc|]. rewrite map_app, <- app_assoc. exact H.
Qed.
Lemma denotes_name np sp f name v : denotes np sp f name v -> last (split_on dot f) "" = name.
Proof.
  intros [mid n A _|mid n A _|p n A _ _]; change ("." ++ n) with (String dot n).
  - rewrite <- app_assoc_s. now apply split_last.
  - rewrite <- app_assoc_s. now apply split_last.
  - now apply split_last.
Qed.
Lemma denotes_load e b np sp f name v w : libraries b np sp -> denotes np sp f name v -> load_arbitrary e f b = Ok w -> w = v.
Proof.
  intros H D. destruct (libs_lookup b np sp H) as (A & B & _). unfold load_arbitrary. rewrite A, B. cbn [bind]. cbv zeta.
  assert (G : forall p n, (_ <- import_module e p;; getattr e p n) = Ok w -> w = Member p n).
  { intros p n. unfold import_module, getattr. destruct (en_import e p); [discriminate|]. cbn [bind]. destruct (en_has e p n); congruence. }
  destruct D as [mid n N F|mid n N F|p n N F1 F2].
  - rewrite prefix_app, replace_head by auto. change ("." ++ n) with (String dot n). rewrite <- app_assoc_s, rsplit_app by auto. apply G.
  - replace (String.prefix "scipy" ("numpy" ++ mid ++ "." ++ n)) with false by reflexivity. rewrite prefix_app, replace_head by auto. change ("." ++ n) with (String dot n). rewrite <- app_assoc_s, rsplit_app by auto. apply G.
  - rewrite F1, F2. change ("." ++ n) with (String dot n). rewrite rsplit_app by auto. apply G.
Qed.
Lemma set_backend_late e b s np sp : libraries b np sp -> b <> st_backend s -> importable e b ->
  set_backend e b s = ('(xps, scss, others) <~ slift (modules_to_update e) ;; _ <~ set_all e "xp" (Module np) xps ;; _ <~ set_all e "scs" (Member sp "special") scss ;; set_others e b others)
    {| st_backend := b; st_attr := st_attr s; st_x64 := if String.eqb b "jax" then true else st_x64 s |}.
Proof.
  intros H N I. unfold set_backend. destruct (libs_lookup b np sp H) as (_ & _ & S). rewrite S. cbn [negb]. destruct (String.eqb_spec b (st_backend s)); [congruence|]. apply (load_ok e b np sp H) in I.
  unfold sbind at 1, load_numpy_and_scipy. unfold sbind at 1, slift at 1. rewrite I. destruct (String.eqb b "jax"); reflexivity.
Qed.
Lemma set_backend_early e b s : existsb (String.eqb b) SUPPORTED_BACKENDS = true -> b <> st_backend s -> ~ importable e b -> exists x, set_backend e b s = (s, Err x) /\ load e b = Err x.
Proof.
  intros S N I. destruct (libs_supported b S) as (np & sp & H). destruct (load e b) as [v|x] eqn:L.
  - exfalso. apply I. apply (load_ok e b np sp H). rewrite (load_value e b np sp v H L) in L. exact L.
  - exists x. split; [|reflexivity]. unfold set_backend. rewrite S. cbn [negb]. destruct (String.eqb_spec b (st_backend s)); [congruence|]. unfold sbind at 1, load_numpy_and_scipy. unfold sbind at 1, slift at 1. rewrite L. reflexivity.
Qed.
Lemma set_backend_same e s : existsb (String.eqb (st_backend s)) SUPPORTED_BACKENDS = true -> set_backend e (st_backend s) s = (s, Ok tt).
Proof. intros S. unfold set_backend. rewrite S. cbn [negb]. now rewrite String.eqb_refl. Qed.
Lemma in_existsb m l : existsb (String.eqb m) l = true <-> In m l.
Proof. rewrite existsb_exists. split; [intros (x & I & E); apply String.eqb_eq in E; now subst|]. intros I. exists m. split; [auto|apply String.eqb_refl]. Qed.
Lemma step_tracks e r b s s' : registers e r -> regular r -> importable e b -> b <> st_backend s -> set_backend e b s = (s', Ok tt) -> st_backend s' = b /\ tracks r b s'.
Proof.
  intros (R1 & R2 & R3) (ND & RG) I N H. assert (I' := I). destruct I as (np & sp & L & _). rewrite (set_backend_late e b s np sp L N I') in H.
  unfold modules_to_update in H. rewrite R3, (others_entries (rg_other r) []) in H by (intros m f J; destruct (RG m f J) as (A & B & _); auto).
  rewrite fold_nodup in H by exact ND. cbn [app bind] in H. unfold sbind at 1, slift in H. rewrite R1, R2 in H.
  unfold sbind at 1 in H. destruct (set_all e "xp" (Module np) (rg_xp r) _) as [s1 r1] eqn:E1. destruct r1 as [[]|]; [|discriminate].
  unfold sbind at 1 in H. destruct (set_all e "scs" _ (rg_scs r) s1) as [s2 r2] eqn:E2. destruct r2 as [[]|]; [|discriminate].
  apply set_all_ok in E1. apply set_all_ok in E2. destruct E1 as (B1 & _ & A1). destruct E2 as (B2 & _ & A2). assert (FR := set_others_frame _ _ _ _ _ _ H). destruct FR as (B3 & _ & A3). cbn [st_backend st_attr] in *.
  assert (NM : forall m f, In (m, f) (rg_other r) -> last (split_on dot f) "" <> "xp" /\ last (split_on dot f) "" <> "scs").
  { intros m f J. destruct (RG m f J) as (_ & _ & name & X1 & X2 & D). destruct (D np sp b L) as [v D']. now rewrite (denotes_name _ _ _ _ _ D'). }
  split; [congruence|]. exists np, sp. split; [exact L|]. split; [|split].
  - intros m J. rewrite A3 by (intros f K; apply not_eq_sym; apply (NM m f K)). rewrite A2. replace (String.eqb "xp" "scs") with false by reflexivity. rewrite andb_false_r, A1, String.eqb_refl, andb_true_r. apply in_existsb in J. now rewrite J.
  - intros m J. rewrite A3 by (intros f K; apply not_eq_sym; apply (NM m f K)). rewrite A2, String.eqb_refl, andb_true_r. apply in_existsb in J. now rewrite J.
  - intros m f name v J D. destruct (set_others_ok _ _ _ _ _ ND H m f J) as (w & W & Q). rewrite (denotes_name _ _ _ _ _ D) in Q. rewrite Q. f_equal. exact (denotes_load e b np sp f name v w L D W).
Qed.
Lemma C72_history_pf :
  forall r attrs calls s' outcomes, regular r -> Forall (fun c => registers (fst c) r) calls ->
  run calls (initial attrs) = (s', outcomes) -> no_late_failure calls outcomes ->
  st_backend s' = selected calls outcomes "" /\ (st_backend s' = "" /\ st_attr s' = attrs \/ tracks r (st_backend s') s').
Proof.
  intros r attrs calls s' outcomes RG.
  assert (G : forall calls s s' outcomes, (st_backend s = "" /\ st_attr s = attrs \/ tracks r (st_backend s) s) -> Forall (fun c => registers (fst c) r) calls -> run calls s = (s', outcomes) -> no_late_failure calls outcomes ->
    st_backend s' = selected calls outcomes (st_backend s) /\ (st_backend s' = "" /\ st_attr s' = attrs \/ tracks r (st_backend s') s')).
  { clear calls s' outcomes. induction calls as [|[e b] calls IH]; intros s s' outcomes INV RE H NF; cbn [run] in H.
    - injection H as <- <-. split; [reflexivity|exact INV].
    - destruct (set_backend e b s) as [s1 r1] eqn:E1. destruct (run calls s1) as [s2 rs] eqn:E2. injection H as <- <-. inversion RE as [|? ? RE1 RE2]; subst. inversion NF as [|? ? ? ? NF1 NF2]; subst. cbn [fst snd] in *.
      assert (CASES : (r1 = Ok tt /\ st_backend s1 = b /\ tracks r b s1) \/ (s1 = s /\ exists x, r1 = Err x)).
      { destruct (existsb (String.eqb b) SUPPORTED_BACKENDS) eqn:S.
        2:{ right. unfold set_backend in E1. rewrite S in E1. cbn [negb] in E1. injection E1 as <- <-. eauto. }
        destruct (string_dec b (st_backend s)) as [->|N].
        { rewrite set_backend_same in E1 by auto. injection E1 as <- <-. left. split; [reflexivity|]. split; [reflexivity|]. destruct INV as [[Z _]|T]; [rewrite Z in S; discriminate|exact T]. }
        destruct NF1 as [->|NI].
        - left. split; [reflexivity|]. destruct (libs_supported b S) as (np & sp & L). 
          assert (I : importable e b). { destruct (load e b) as [v|x] eqn:LD; [apply (load_ok e b np sp L); rewrite (load_value e b np sp v L LD) in LD; exact LD|]. exfalso. unfold set_backend in E1. rewrite S in E1. cbn [negb] in E1.
            destruct (String.eqb_spec b (st_backend s)); [congruence|]. unfold sbind at 1, load_numpy_and_scipy in E1. unfold sbind at 1, slift at 1 in E1. rewrite LD in E1. discriminate. }
          exact (step_tracks e r b s s1 RE1 RG I N E1).
        - right. destruct (set_backend_early e b s S N NI) as (x & X & _). rewrite X in E1. injection E1 as <- <-. eauto. }
      destruct CASES as [(-> & SB & T)|(-> & x & ->)]; cbn [selected].
      + rewrite <- SB. apply (IH s1); auto. right. now rewrite SB.
      + apply (IH s); auto. }
  intros RE H NF. exact (G calls (initial attrs) s' outcomes (or_introl (conj eq_refl eq_refl)) RE H NF).
Qed.

Lemma C72_validation_pf :
  forall e b s, (forall np sp, ~ libraries b np sp) -> set_backend e b s = (s, Err ValueError).
Proof.
  intros e b s H. unfold set_backend. destruct (existsb (String.eqb b) SUPPORTED_BACKENDS) eqn:S; [|reflexivity]. destruct (libs_supported b S) as (np & sp & L). destruct (H np sp L).
Qed.

Lemma C72_missing_library_pf :
  forall e b s np sp x, libraries b np sp -> b <> st_backend s ->
  (en_import e np = Some x \/ en_import e np = None /\ en_import e sp = Some x) -> set_backend e b s = (s, Err x).
Proof.
  intros e b s np sp x L N H. destruct (libs_lookup b np sp L) as (A & B & S).
  assert (LD : load e b = Err x). { unfold load. rewrite A, B. cbn [bind]. unfold import_module. destruct H as [-> |[-> ->]]; reflexivity. }
  unfold set_backend. rewrite S. cbn [negb]. destruct (String.eqb_spec b (st_backend s)); [congruence|]. unfold sbind at 1, load_numpy_and_scipy. unfold sbind at 1, slift at 1. rewrite LD. reflexivity.
Qed.

Lemma set_all_fail e name v pre m post x : forall s, (forall k, In k pre -> en_import e k = None) -> en_import e m = Some x ->
  exists s', set_all e name v (pre ++ m :: post) s = (s', Err x) /\ st_backend s' = st_backend s /\ st_x64 s' = st_x64 s /\
    (forall k, In k pre -> st_attr s' k name = Some v) /\ forall k a, ~ In k pre \/ a <> name -> st_attr s' k a = st_attr s k a.
Proof.
  induction pre as [|k pre IH]; intros s HP HM; cbn [app set_all]; unfold sbind at 1, slift at 1, import_module.
  - rewrite HM. exists s. split; [reflexivity|]. split; [reflexivity|]. split; [reflexivity|]. split; [intros k []|]. reflexivity.
  - rewrite (HP k (or_introl eq_refl)). unfold sbind, setattr. match goal with |- exists s', set_all _ _ _ _ ?t = _ /\ _ => destruct (IH t (fun q I => HP q (or_intror I)) HM) as (s' & E & B & X & A1 & A2) end. exists s'. split; [exact E|]. cbn [st_backend st_x64 st_attr] in *. split; [auto|]. split; [auto|]. split.
    + intros q [<-|I]; [|now apply A1]. destruct (in_dec string_dec k pre) as [I|NI]; [now apply A1|]. rewrite A2 by now left. now rewrite !String.eqb_refl.
    + intros q a D. rewrite A2 by (destruct D as [D|D]; [left; intros I; apply D; now right|now right]). destruct (String.eqb_spec q k) as [->|]; [|reflexivity]. destruct (String.eqb_spec a name) as [->|]; [|reflexivity]. exfalso. destruct D as [D|D]; [apply D; now left|congruence].
Qed.
Lemma C73_retry_refuted_pf :
  forall e b s np sp pre m post x others, libraries b np sp -> b <> st_backend s -> importable e b -> others_dict (en_other e) [] = Ok others ->
  en_xp e = (pre ++ m :: post)%list -> (forall k, In k pre -> en_import e k = None) -> en_import e m = Some x ->
  exists s', set_backend e b s = (s', Err x) /\ st_backend s' = b /\
    (forall k, In k pre -> st_attr s' k "xp" = Some (Module np)) /\
    (forall k, ~ In k pre -> st_attr s' k "xp" = st_attr s k "xp") /\ (forall k a, a <> "xp" -> st_attr s' k a = st_attr s k a) /\
    forall e', set_backend e' b s' = (s', Ok tt).
Proof.
  intros e b s np sp pre m post x others L N I O X HP HM. rewrite (set_backend_late e b s np sp L N I). unfold modules_to_update. rewrite O. cbn [bind]. unfold sbind at 1, slift at 1. rewrite X.
  destruct (set_all_fail e "xp" (Module np) pre m post x {| st_backend := b; st_attr := st_attr s; st_x64 := if String.eqb b "jax" then true else st_x64 s |} HP HM) as (s' & E & B & _ & A1 & A2). cbn [st_backend st_attr] in *.
  exists s'. unfold sbind at 1. rewrite E. split; [reflexivity|]. split; [exact B|]. split; [exact A1|]. split; [intros k NI; apply A2; now left|]. split; [intros k a NA; apply A2; now right|].
  intros e'. rewrite <- B. apply set_backend_same. rewrite B. exact (proj2 (proj2 (libs_lookup b np sp L))).
Qed.

Lemma C74_idempotent_pf :
  forall e e' b s s', set_backend e b s = (s', Ok tt) -> set_backend e' b s' = (s', Ok tt).
Proof.
  intros e e' b s s' H. destruct (existsb (String.eqb b) SUPPORTED_BACKENDS) eqn:S; [|unfold set_backend in H; rewrite S in H; discriminate].
  destruct (libs_supported b S) as (np & sp & L). assert (SB : st_backend s' = b).
  { destruct (string_dec b (st_backend s)) as [->|N]; [rewrite set_backend_same in H by auto; injection H as <-; reflexivity|].
    destruct (load e b) as [v|x] eqn:LD.
    - assert (I : importable e b) by (apply (load_ok e b np sp L); rewrite (load_value e b np sp v L LD) in LD; exact LD). rewrite (set_backend_late e b s np sp L N I) in H.
      unfold sbind at 1, slift at 1 in H. destruct (modules_to_update e) as [[[a c] o]|]; [|discriminate]. unfold sbind at 1 in H. destruct (set_all e "xp" (Module np) a _) as [s1 r1] eqn:E1. destruct r1; [|discriminate].
      unfold sbind at 1 in H. destruct (set_all e "scs" _ c s1) as [s2 r2] eqn:E2. destruct r2; [|discriminate]. apply set_all_frame in E1. apply set_all_frame in E2. apply set_others_frame in H. cbn [st_backend] in *. destruct E1 as [E1 _], E2 as [E2 _], H as [H _]. congruence.
    - exfalso. unfold set_backend in H. rewrite S in H. cbn [negb] in H. destruct (String.eqb_spec b (st_backend s)); [congruence|]. unfold sbind at 1, load_numpy_and_scipy in H. unfold sbind at 1, slift at 1 in H. rewrite LD in H. discriminate. }
  rewrite <- SB in S |- *. now apply set_backend_same.
Qed.

Lemma C74_last_name_decides_pf :
  forall r attrs attrs' calls calls' s s' o o', regular r -> Forall (fun c => registers (fst c) r) calls -> Forall (fun c => registers (fst c) r) calls' ->
  run calls (initial attrs) = (s, o) -> run calls' (initial attrs') = (s', o') -> no_late_failure calls o -> no_late_failure calls' o' ->
  selected calls o "" = selected calls' o' "" -> selected calls o "" <> "" ->
  st_backend s = st_backend s' /\ (forall m, In m (rg_xp r) -> st_attr s m "xp" = st_attr s' m "xp") /\ (forall m, In m (rg_scs r) -> st_attr s m "scs" = st_attr s' m "scs") /\
  (forall m f name, In (m, f) (rg_other r) -> (exists np sp v, libraries (st_backend s) np sp /\ denotes np sp f name v) -> st_attr s m name = st_attr s' m name).
Proof.
  intros r a a' c c' s s' o o' RG R R' H H' N N' E NE. destruct (C72_history_pf r a c s o RG R H N) as [B T]. destruct (C72_history_pf r a' c' s' o' RG R' H' N') as [B' T'].
  destruct T as [[Z _]|(np & sp & L & T1 & T2 & T3)]; [congruence|]. destruct T' as [[Z _]|(np' & sp' & L' & T1' & T2' & T3')]; [congruence|].
  assert (EB : st_backend s = st_backend s') by congruence. rewrite <- EB in L'. destruct (libs_fun _ _ _ _ _ L L') as [<- <-]. split; [exact EB|]. split; [|split].
  - intros m I. now rewrite T1, T1'.
  - intros m I. now rewrite T2, T2'.
  - intros m f name I (np' & sp' & v & L2 & D). destruct (libs_fun _ _ _ _ _ L L2) as [<- <-]. now rewrite (T3 m f name v I D), (T3' m f name v I D).
Qed.

Lemma C74_others_untouched_pf :
  forall e r b s s' o m a, registers e r -> regular r -> set_backend e b s = (s', o) ->
  (a = "xp" -> ~ In m (rg_xp r)) -> (a = "scs" -> ~ In m (rg_scs r)) ->
  (forall f np sp v, In (m, f) (rg_other r) -> ~ denotes np sp f a v) -> st_attr s' m a = st_attr s m a.
Proof.
  intros e r b s s' o m a (R1 & R2 & R3) (ND & RG) H NX NS NO.
  destruct (existsb (String.eqb b) SUPPORTED_BACKENDS) eqn:S; [|unfold set_backend in H; rewrite S in H; cbn [negb] in H; congruence].
  destruct (string_dec b (st_backend s)) as [->|N]; [rewrite set_backend_same in H by auto; congruence|]. destruct (libs_supported b S) as (np & sp & L).
  destruct (load e b) as [v|x] eqn:LD.
  2:{ unfold set_backend in H. rewrite S in H. cbn [negb] in H. destruct (String.eqb_spec b (st_backend s)); [congruence|]. unfold sbind at 1, load_numpy_and_scipy in H. unfold sbind at 1, slift at 1 in H. rewrite LD in H. congruence. }
  assert (I : importable e b) by (apply (load_ok e b np sp L); rewrite (load_value e b np sp v L LD) in LD; exact LD). rewrite (set_backend_late e b s np sp L N I) in H.
  unfold modules_to_update in H. rewrite R3, (others_entries (rg_other r) []) in H by (intros k f J; destruct (RG k f J) as (A & B & _); auto).
  rewrite fold_nodup in H by exact ND. cbn [app bind] in H. unfold sbind at 1, slift in H. rewrite R1, R2 in H.
  assert (FO : forall f, In (m, f) (rg_other r) -> a <> last (split_on dot f) "").
  { intros f J. destruct (RG m f J) as (_ & _ & name & _ & _ & D). destruct (D np sp b L) as [w D']. rewrite (denotes_name _ _ _ _ _ D'). intros ->. exact (NO f np sp w J D'). }
  unfold sbind at 1 in H. destruct (set_all e "xp" (Module np) (rg_xp r) _) as [s1 r1] eqn:E1. apply set_all_frame in E1. destruct E1 as (_ & _ & A1). cbn [st_attr] in A1.
  assert (Q1 : st_attr s1 m a = st_attr s m a) by (apply A1; destruct (string_dec a "xp"); [left; auto|now right]).
  destruct r1 as [[]|]; [|injection H as <- <-; exact Q1].
  unfold sbind at 1 in H. destruct (set_all e "scs" _ (rg_scs r) s1) as [s2 r2] eqn:E2. apply set_all_frame in E2. destruct E2 as (_ & _ & A2).
  assert (Q2 : st_attr s2 m a = st_attr s m a) by (rewrite A2; [exact Q1|]; destruct (string_dec a "scs"); [left; auto|now right]).
  destruct r2 as [[]|]; [|injection H as <- <-; exact Q2]. apply set_others_frame in H. destruct H as (_ & _ & A3). rewrite A3; auto.
Qed.

Lemma C74_x64_sticky_pf :
  forall e b s s' o, set_backend e b s = (s', o) -> (st_x64 s = true -> st_x64 s' = true) /\ (b = "jax" -> st_backend s <> "jax" -> o = Ok tt -> st_x64 s' = true).
Proof.
  intros e b s s' o H.
  destruct (existsb (String.eqb b) SUPPORTED_BACKENDS) eqn:S; [|unfold set_backend in H; rewrite S in H; cbn [negb] in H; injection H as <- <-; split; [auto|discriminate]].
  destruct (string_dec b (st_backend s)) as [->|N]; [rewrite set_backend_same in H by auto; injection H as <- <-; split; [auto|congruence]|]. destruct (libs_supported b S) as (np & sp & L).
  destruct (load e b) as [v|x] eqn:LD.
  2:{ unfold set_backend in H. rewrite S in H. cbn [negb] in H. destruct (String.eqb_spec b (st_backend s)); [congruence|]. unfold sbind at 1, load_numpy_and_scipy in H. unfold sbind at 1, slift at 1 in H. rewrite LD in H. injection H as <- <-. split; [auto|discriminate]. }
  assert (I : importable e b) by (apply (load_ok e b np sp L); rewrite (load_value e b np sp v L LD) in LD; exact LD). rewrite (set_backend_late e b s np sp L N I) in H.
  set (s0 := {| st_backend := b; st_attr := st_attr s; st_x64 := if String.eqb b "jax" then true else st_x64 s |}) in H.
  assert (X : st_x64 s' = st_x64 s0).
  { unfold sbind at 1, slift at 1 in H. destruct (modules_to_update e) as [[[xs cs] os]|]; [|injection H as <- <-; reflexivity].
    unfold sbind at 1 in H. destruct (set_all e "xp" (Module np) xs s0) as [s1 r1] eqn:E1. apply set_all_frame in E1. destruct E1 as (_ & X1 & _). destruct r1; [|injection H as <- <-; exact X1].
    unfold sbind at 1 in H. destruct (set_all e "scs" _ cs s1) as [s2 r2] eqn:E2. apply set_all_frame in E2. destruct E2 as (_ & X2 & _). destruct r2; [|injection H as <- <-; congruence]. apply set_others_frame in H. destruct H as (_ & X3 & _). congruence. }
  rewrite X. cbn [st_x64 s0]. unfold s0. cbn [st_x64]. split; [intros ->; destruct (String.eqb b "jax"); reflexivity|]. intros -> _ _. reflexivity.
Qed.

Lemma C75_entries_pf :
  forall e r b s s' np sp, registers e r -> regular r -> libraries b np sp -> b <> st_backend s -> set_backend e b s = (s', Ok tt) ->
  forall m f name v, In (m, f) (rg_other r) -> denotes np sp f name v -> st_attr s' m name = Some v.
Proof.
  intros e r b s s' np sp R RG L N H m f name v J D.
  assert (I : importable e b). { destruct (load e b) as [w|x] eqn:LD; [apply (load_ok e b np sp L); rewrite (load_value e b np sp w L LD) in LD; exact LD|]. exfalso. destruct (libs_lookup b np sp L) as (_ & _ & S). unfold set_backend in H. rewrite S in H. cbn [negb] in H.
    destruct (String.eqb_spec b (st_backend s)); [congruence|]. unfold sbind at 1, load_numpy_and_scipy in H. unfold sbind at 1, slift at 1 in H. rewrite LD in H. discriminate. }
  destruct (step_tracks e r b s s' R RG I N H) as (_ & np' & sp' & L' & _ & _ & T). destruct (libs_fun _ _ _ _ _ L L') as [<- <-]. exact (T m f name v J D).
Qed.

Lemma fold_last (ps : list (string * string)) m f l3 : forall d, ~ In m (map fst l3) -> dget m (fold_left (fun d mf => dset (fst mf) (snd mf) d) (ps ++ (m, f) :: l3)%list d) = Some f.
Proof.
  intros d N. rewrite fold_left_app. cbn [fold_left fst snd]. generalize (fold_left (fun d mf => dset (fst mf) (snd mf) d) ps d). clear d ps. intros d.
  assert (G : dget m (dset m f d) = Some f) by apply dget_dset_same. revert G. generalize (dset m f d). clear d. induction l3 as [|[k g] l3 IH]; intros d G; [exact G|]. cbn [fold_left fst snd map] in *. apply IH; [intros I; apply N; now right|].
  rewrite dget_dset_other; [exact G|]. intros ->. apply N. now left.
Qed.
Lemma fold_wf (ps : list (string * string)) : forall d, dwf d -> dwf (fold_left (fun d mf => dset (fst mf) (snd mf) d) ps d).
Proof. induction ps as [|[m f] ps IH]; intros d W; [exact W|]. cbn [fold_left]. apply IH. now apply dwf_dset. Qed.
Lemma C75_two_functions_refuted_pf :
  forall e b s s' l1 l2 l3 m f1 f2 np sp name1 name2 v1 v2, libraries b np sp -> b <> st_backend s ->
  en_other e = map (fun mf => entry (fst mf) (snd mf)) (l1 ++ (m, f1) :: l2 ++ (m, f2) :: l3)%list -> ~ In m (map fst l3) ->
  (forall k f, In (k, f) (l1 ++ (m, f1) :: l2 ++ (m, f2) :: l3)%list -> without colon k /\ without colon f) ->
  denotes np sp f1 name1 v1 -> denotes np sp f2 name2 v2 -> name1 <> name2 -> name1 <> "xp" -> name1 <> "scs" ->
  set_backend e b s = (s', Ok tt) -> st_attr s' m name1 = st_attr s m name1.
Proof.
  intros e b s s' l1 l2 l3 m f1 f2 np sp n1 n2 v1 v2 L N EO NI WC D1 D2 NN NX NS H.
  assert (I : importable e b). { destruct (load e b) as [w|x] eqn:LD; [apply (load_ok e b np sp L); rewrite (load_value e b np sp w L LD) in LD; exact LD|]. exfalso. destruct (libs_lookup b np sp L) as (_ & _ & S). unfold set_backend in H. rewrite S in H. cbn [negb] in H.
    destruct (String.eqb_spec b (st_backend s)); [congruence|]. unfold sbind at 1, load_numpy_and_scipy in H. unfold sbind at 1, slift at 1 in H. rewrite LD in H. discriminate. }
  rewrite (set_backend_late e b s np sp L N I) in H. unfold modules_to_update in H. rewrite EO in H. rewrite others_entries in H by exact WC. cbn [bind] in H. unfold sbind at 1, slift in H.
  set (d := fold_left (fun d mf => dset (fst mf) (snd mf) d) (l1 ++ (m, f1) :: l2 ++ (m, f2) :: l3)%list []) in H.
  assert (DG : dget m d = Some f2). { unfold d. replace (l1 ++ (m, f1) :: l2 ++ (m, f2) :: l3)%list with ((l1 ++ (m, f1) :: l2) ++ (m, f2) :: l3)%list by now rewrite <- app_assoc. now apply fold_last. }
  assert (DW : dwf d) by (apply fold_wf; constructor).
  unfold sbind at 1 in H. destruct (set_all e "xp" (Module np) (en_xp e) _) as [s1 r1] eqn:E1. apply set_all_frame in E1. destruct E1 as (_ & _ & A1). cbn [st_attr] in A1. destruct r1; [|discriminate].
  unfold sbind at 1 in H. destruct (set_all e "scs" _ (en_scs e) s1) as [s2 r2] eqn:E2. apply set_all_frame in E2. destruct E2 as (_ & _ & A2). destruct r2; [|discriminate]. apply set_others_frame in H. destruct H as (_ & _ & A3).
  rewrite A3, A2, A1; auto. intros f J. rewrite (dget_wf_In m f d DW J) in DG. injection DG as ->. now rewrite (denotes_name _ _ _ _ _ D2).
Qed.

