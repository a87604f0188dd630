(** Property theorems (backend). Proofs are in [backend_thms]; the vocabulary is in [Spec]. *)
From Coq Require Import String Ascii Bool Arith Lia.
From Coq Require Import List.
From Verif Require Import Py Py_facts St Backend_model SpecBackend.
Import ListNotations.
Local Open Scope string_scope.
From Verif Require Import backend_thms.

(** C72. After any sequence of calls in any interpreters with the same registered entry points, in which every call returned or failed because its name is unsupported or its libraries
    cannot be imported: the recorded backend is the last one selected, and (once one has been) every registered attribute of every registered module is that backend's. *)
Theorem C72_history :
  forall r attrs calls s' outcomes, regular r -> Forall (fun c => registers (fst c) r) calls ->
  run calls (initial attrs) = (s', outcomes) -> no_late_failure calls outcomes ->
  st_backend s' = selected calls outcomes "" /\ (st_backend s' = "" /\ st_attr s' = attrs \/ tracks r (st_backend s') s').
Proof. exact C72_history_pf. Qed.
Print Assumptions C72_history.

Definition ok_env : env := {| en_import := fun _ => None; en_has := fun _ _ => true; en_xp := own_xp; en_scs := own_scs; en_other := ["mypackage.baz:scipy.linalg.toeplitz"] |}.
Definition no_jax : env := {| en_import := fun m => if String.prefix "jax" m then Some ModuleNotFoundError else None; en_has := fun _ _ => true; en_xp := own_xp; en_scs := own_scs; en_other := ["mypackage.baz:scipy.linalg.toeplitz"] |}.
Definition ex_reg : registration := {| rg_xp := own_xp; rg_scs := own_scs; rg_other := [("mypackage.baz", "scipy.linalg.toeplitz")] |}.
Fixpoint ascii_in (c : ascii) (s : string) : bool := match s with "" => false | String a s' => Ascii.eqb a c || ascii_in c s' end.
Lemma without_dec c s : ascii_in c s = false -> without c s.
Proof. induction s as [|a s IH]; intros H x y E; [destruct x; discriminate|]. cbn [ascii_in] in H. apply orb_false_iff in H. destruct H as [H1 H2]. destruct x as [|d x]; cbn [append] in E; injection E as E1 E2; [subst; rewrite Ascii.eqb_refl in H1; discriminate|]. exact (IH H2 x y E2). Qed.
Example C72_hyps : regular ex_reg /\ registers ok_env ex_reg /\ registers no_jax ex_reg /\
  (let calls := [(ok_env, "torch"); (ok_env, "numpy"); (no_jax, "jax"); (ok_env, "jax"); (ok_env, "cupy")] in
   exists s outcomes, run calls (initial (fun _ _ => None)) = (s, outcomes) /\ selected calls outcomes "" = "cupy" /\ st_attr s "gwpopulation.vt" "xp" = Some (Module "cupy") /\
     outcomes = [Err ValueError; Ok tt; Err ModuleNotFoundError; Ok tt; Ok tt]).
Proof.
  split; [|repeat split].
  - split; [repeat constructor; intros []|]. intros m f [E|[]]. injection E as <- <-. split; [apply without_dec; reflexivity|]. split; [apply without_dec; reflexivity|].
    exists "toeplitz". split; [discriminate|]. split; [discriminate|]. intros np sp b _. exists (Member (sp ++ ".linalg") "toeplitz"). apply (den_scipy np sp ".linalg" "toeplitz"); [apply without_dec; reflexivity|].
    intros x y E. assert (P : without "s"%char ".linalg.toeplitz") by (apply without_dec; reflexivity). exact (P x ("cipy" ++ y) E).
  - cbv zeta. eexists _, _. split; [cbv; reflexivity|]. repeat split.
Qed.

(** C72. Failures before the switch change nothing: an unsupported name raises ValueError; libraries that cannot be imported raise the corresponding exception. *)
Theorem C72_validation :
  forall e b s, (forall np sp, ~ libraries b np sp) -> set_backend e b s = (s, Err ValueError).
Proof. exact C72_validation_pf. Qed.
Print Assumptions C72_validation.

Theorem C72_missing_library :
  forall e b s np sp x, libraries b np sp -> b <> st_backend s ->
  (en_import e np = Some x \/ en_import e np = None /\ en_import e sp = Some x) -> set_backend e b s = (s, Err x).
Proof. exact C72_missing_library_pf. Qed.
Print Assumptions C72_missing_library.

(** C73 (refuted). If the import of any registered module fails during the switch, the modules before it have the new backend and all others the old one; a second call with the
    same name, in any interpreter (the cause removed), returns without doing anything. *)
Theorem C73_retry_refuted :
  forall e b s np sp pre m post x others, libraries b np sp -> b <> st_backend s -> importable e b -> others_dict (en_other e) [] = Ok others ->
  en_xp e = (pre ++ m :: post)%list -> (forall k, In k pre -> en_import e k = None) -> en_import e m = Some x ->
  exists s', set_backend e b s = (s', Err x) /\ st_backend s' = b /\
    (forall k, In k pre -> st_attr s' k "xp" = Some (Module np)) /\
    (forall k, ~ In k pre -> st_attr s' k "xp" = st_attr s k "xp") /\ (forall k a, a <> "xp" -> st_attr s' k a = st_attr s k a) /\
    forall e', set_backend e' b s' = (s', Ok tt).
Proof. exact C73_retry_refuted_pf. Qed.
Print Assumptions C73_retry_refuted.

Definition broken_env : env := {| en_import := fun m => if String.eqb m "plugin" then Some ImportError else None; en_has := fun _ _ => true; en_xp := ["gwpopulation.vt"; "plugin"; "gwpopulation.utils"]; en_scs := []; en_other := [] |}.
Example C73_hyps : importable broken_env "jax" /\ en_xp broken_env = (["gwpopulation.vt"] ++ "plugin" :: ["gwpopulation.utils"])%list /\ en_import broken_env "plugin" = Some ImportError.
Proof. split; [|repeat split]. exists "jax.numpy", "jax.scipy". split; [constructor|repeat split]. Qed.

(** C74. Selecting the same backend again, in any interpreter, changes nothing after a successful call. *)
Theorem C74_idempotent :
  forall e e' b s s', set_backend e b s = (s', Ok tt) -> set_backend e' b s' = (s', Ok tt).
Proof. exact C74_idempotent_pf. Qed.
Print Assumptions C74_idempotent.

(** C74. The registered attributes after two histories of successful or early-failing calls that selected the same backend last are the same, whatever came before. *)
Theorem C74_last_name_decides :
  forall r attrs attrs' calls calls' s s' o o', regular r -> Forall (fun c => registers (fst c) r) calls -> Forall (fun c => registers (fst c) r) calls' ->
  run calls (initial attrs) = (s, o) -> run calls' (initial attrs') = (s', o') -> no_late_failure calls o -> no_late_failure calls' o' ->
  selected calls o "" = selected calls' o' "" -> selected calls o "" <> "" ->
  st_backend s = st_backend s' /\ (forall m, In m (rg_xp r) -> st_attr s m "xp" = st_attr s' m "xp") /\ (forall m, In m (rg_scs r) -> st_attr s m "scs" = st_attr s' m "scs") /\
  (forall m f name, In (m, f) (rg_other r) -> (exists np sp v, libraries (st_backend s) np sp /\ denotes np sp f name v) -> st_attr s m name = st_attr s' m name).
Proof. exact C74_last_name_decides_pf. Qed.
Print Assumptions C74_last_name_decides.

(** C74. A call, successful or not, changes no attribute that is not registered (in the interpreter of the call). *)
Theorem C74_others_untouched :
  forall e r b s s' o m a, registers e r -> regular r -> set_backend e b s = (s', o) ->
  (a = "xp" -> ~ In m (rg_xp r)) -> (a = "scs" -> ~ In m (rg_scs r)) ->
  (forall f np sp v, In (m, f) (rg_other r) -> ~ denotes np sp f a v) -> st_attr s' m a = st_attr s m a.
Proof. exact C74_others_untouched_pf. Qed.
Print Assumptions C74_others_untouched.

(** C74. jax's 64-bit switch is turned on by selecting jax and never off again. *)
Theorem C74_x64_sticky :
  forall e b s s' o, set_backend e b s = (s', o) -> (st_x64 s = true -> st_x64 s' = true) /\ (b = "jax" -> st_backend s <> "jax" -> o = Ok tt -> st_x64 s' = true).
Proof. exact C74_x64_sticky_pf. Qed.
Print Assumptions C74_x64_sticky.

(** C75. With one function per module, a successful switch installs every registered function under its last name component, taken from the new backend's library. *)
Theorem C75_entries :
  forall e r b s s' np sp, registers e r -> regular r -> libraries b np sp -> b <> st_backend s -> set_backend e b s = (s', Ok tt) ->
  forall m f name v, In (m, f) (rg_other r) -> denotes np sp f name v -> st_attr s' m name = Some v.
Proof. exact C75_entries_pf. Qed.
Print Assumptions C75_entries.

(** C75 (refuted). When a module registers two functions, with [f2] the last of its entries, a successful switch of backend leaves the other function [f1] as it was. *)
Theorem C75_two_functions_refuted :
  forall e b s s' l1 l2 l3 m f1 f2 np sp name1 name2 v1 v2, libraries b np sp -> b <> st_backend s ->
  en_other e = map (fun mf => entry (fst mf) (snd mf)) (l1 ++ (m, f1) :: l2 ++ (m, f2) :: l3)%list -> ~ In m (map fst l3) ->
  (forall k f, In (k, f) (l1 ++ (m, f1) :: l2 ++ (m, f2) :: l3)%list -> without colon k /\ without colon f) ->
  denotes np sp f1 name1 v1 -> denotes np sp f2 name2 v2 -> name1 <> name2 -> name1 <> "xp" -> name1 <> "scs" ->
  set_backend e b s = (s', Ok tt) -> st_attr s' m name1 = st_attr s m name1.
Proof. exact C75_two_functions_refuted_pf. Qed.
Print Assumptions C75_two_functions_refuted.

Example C75_hyps : exists e s', en_other e = map (fun mf => entry (fst mf) (snd mf)) ([] ++ ("p.m", "scipy.linalg.toeplitz") :: [] ++ ("p.m", "scipy.linalg.inv") :: [])%list /\
  set_backend e "jax" (initial (fun _ _ => None)) = (s', Ok tt) /\ st_attr s' "p.m" "toeplitz" = None /\ st_attr s' "p.m" "inv" = Some (Member "jax.scipy.linalg" "inv").
Proof.
  exists {| en_import := fun _ => None; en_has := fun _ _ => true; en_xp := []; en_scs := []; en_other := ["p.m:scipy.linalg.toeplitz"; "p.m:scipy.linalg.inv"] |}. eexists.
  split; [reflexivity|]. split; [cbv; reflexivity|]. split; reflexivity.
Qed.

