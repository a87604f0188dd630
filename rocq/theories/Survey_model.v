(** * Model of a whole analysis with everything in it that has memory: test/example_test.py lines 24-75.

    Two bilby models, each with its own smoothed mass model, are evaluated again and again by one likelihood. Memory is kept by the mass
    models (the interpolant of the mass-ratio normalisation, mass.py 597-633) and by the model objects (see [Cache_model]). Arrays of
    shape (events, samples) are evaluated element-wise in row-major order. *)
From Coq Require Import Reals String Bool.
From Coq Require Import List.
From Verif Require Import Xf Py St Np Utils_model Spin_model Smoothed_model Cosmo_model Redshift_model Hyperpe_model Vt_model Priors_model Cache_model.
Import ListNotations.
Local Open Scope R_scope.
Local Open Scope string_scope.

(** Arrays with one row per event, in row-major order, and back ([n] rows of [k]). *)
Definition ravel (data : dict matrix) : dict (list xf) := map (fun kv => (fst kv, List.concat (snd kv))) data.
Fixpoint reshape (n k : nat) (l : list xf) : matrix :=
  match n with O => [] | S n' => firstn k l :: reshape n' k (skipn k l) end.

Section Objects.
  Variable M : Type.
  (** A function of a model, with memory of its own. *)
  Record memory_function := { my_names : list string; my_call : dict (list xf) -> dict xf -> ST M (list xf) }.
  (** The memory of a function and what the model object keeps of its last evaluation. *)
  Definition object_state : Type := M * slot (list xf).

  (** [Cache_model.call_function] for a function with memory: a call changes the memory also if it raises. *)
  Definition call_object (cache : bool) (f : memory_function) (st : object_state) (data : dict (list xf)) (parameters : dict xf) : result (list xf) * object_state :=
    let kw := given (my_names f) parameters in
    let call := match my_call f data kw (fst st) with
                | (m, Ok w) => (Ok w, (m, if cache then Some (kw, w) else snd st))
                | (m, Err e) => (Err e, (m, snd st))
                end in
    match snd st with
    | Some (last, v) => if cache && same_parameters last kw then (Ok v, st) else call
    | None => call
    end.
  (** [Model.prob] *)
  Fixpoint object_prob (cache : bool) (fs : list memory_function) (sts : list object_state) (acc : option (list xf)) (data : dict (list xf))
    (parameters : dict xf) : result (option (list xf)) * list object_state :=
    match fs, sts with
    | f :: fs', st :: sts' =>
        match call_object cache f st data parameters with
        | (Ok v, st') => let '(r, rest) := object_prob cache fs' sts' (times_list acc (Some v)) data parameters in (r, st' :: rest)
        | (Err e, st') => (Err e, st' :: sts')
        end
    | _, _ => (Ok acc, sts)
    end.
  Definition unused (ms : list M) : list object_state := map (fun m => (m, None)) ms.
  Fixpoint object_history (cache : bool) (fs : list memory_function) (sts : list object_state) (data : dict (list xf)) (calls : list (dict xf)) : list (result (option (list xf))) :=
    match calls with
    | [] => []
    | parameters :: calls' =>
        let '(r, sts') := object_prob cache fs sts None data parameters in r :: object_history cache fs sts' data calls'
    end.

  (** hyperpe.py lines 163-184 with vt.py 167-259, as in [Cache_model.evaluate]. *)
  Variables (bk : backend) (cache : bool) (events_model selection_model : list memory_function) (L : likelihood) (V : resampling).
  Definition survey_evaluate (st : list object_state * list object_state) (parameters : dict xf) : result xf * (list object_state * list object_state) :=
    let '(pe, se) := object_prob cache events_model (fst st) None (ravel (li_data L)) parameters in
    match pe with
    | Err e => (Err e, (se, snd st))
    | Ok _ =>
        let '(pi, si) := object_prob cache selection_model (snd st) None (rv_data V) parameters in
        (log_likelihood_ratio bk (fun _ _ => rmap (reshape (li_n L) (li_samples L)) (got pe)) (resampling_call bk (fun _ _ => got pi) V) Ok L parameters, (se, si))
    end.
  Fixpoint survey_evaluations (st : list object_state * list object_state) (calls : list (dict xf)) : list (result xf) :=
    match calls with [] => [] | parameters :: calls' => let '(r, st') := survey_evaluate st parameters in r :: survey_evaluations st' calls' end.
End Objects.
Arguments my_names {M}. Arguments my_call {M}. Arguments unused {M}. Arguments object_prob {M}. Arguments object_history {M}. Arguments survey_evaluations {M}.

(** Functions without memory: the two spin models at one sample after another (spin.py 71-124, 127-167), and the redshift model. *)
Definition pairs_of (f : xf -> xf -> dict xf -> result xf) (k1 k2 : string) (data : dict (list xf)) (kw : dict xf) : result (list xf) :=
  x1 <- dlookup k1 data ;; x2 <- dlookup k2 data ;; mapM (fun x => f (fst x) (snd x) kw) (combine x1 x2).
(** test/example_test.py lines 25-30: the functions of both models. *)
Definition survey_functions (bk : backend) (linterp : list xf -> list xf -> xf -> xf) (r : redshift) : list (memory_function smoothed) :=
  [{| my_names := match snd (Smoothed_model.variable_names (dkeys (class_kwargs SinglePeak (Fin 100))) (class_object SinglePeak)) with Ok l => l | Err _ => [] end;
      my_call := class_call SinglePeak bk linterp |};
   {| my_names := magnitude_args; my_call := fun data kw => slift (pairs_of (magnitude_kw bk) "a_1" "a_2" data kw) |};
   {| my_names := orientation_args ++ orientation_defaults; my_call := fun data kw => slift (pairs_of (orientation_kw bk) "cos_tilt_1" "cos_tilt_2" data kw) |};
   {| my_names := fst (Redshift_model.variable_names r); my_call := fun data kw => slift (probability r data kw) |}]%list.
(** The memories before the first evaluation ([s] is a new mass model; the other functions have none). *)
Definition survey_memories (s : smoothed) : list smoothed := [s; s; s; s].
