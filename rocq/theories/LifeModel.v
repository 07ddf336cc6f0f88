(** Model of the life cycle of a model object and of the zero threshold:
    src/calliope/model.py:33-49, 160-223, 271-417, 876-899. *)
From Verif Require Import Base SporesModel.
Local Open Scope string_scope.
Local Open Scope list_scope.

(** model.py:876-899 [_apply_zero_threshold]: [np.abs(x) < threshold]; comparisons with NaN
    are false. *)
Definition below (thr : Q) (x : xq) : bool :=
  match x with Fin q => Qltb (Qabs q) thr | _ => false end.
Definition threshold_value (thr : Q) (x : xq) : xq := if below thr x then Fin 0 else x.
Definition threshold (thr : Q) (d : dataset) : dataset :=
  if Qeq_bool thr 0 then d else map (fun nv => (fst nv, map (threshold_value thr) (snd nv))) d.
Definition threshold_results (thr : Q) (r : results) : results :=
  match r with
  | RNone => RNone
  | RPlain d => RPlain (threshold thr d)
  | RSpores l => RSpores (map (fun kd => (fst kd, threshold thr (snd kd))) l)
  end.

(** [bool(dataset.data_vars)] *)
Definition has_data (r : results) : bool :=
  match r with
  | RNone => false
  | RPlain d => match d with [] => false | _ => true end
  | RSpores l => existsb (fun kd => match snd kd with [] => false | _ => true end) l
  end.

(** A model object: the two flags, the results, the termination condition, and whether the
    backend object it holds was completed ([None]: there is no backend). *)
Record model := {
  m_built : bool;
  m_solved : bool;
  m_results : results;
  m_term : option string;
  m_backend : option bool
}.

(** model.py:160-191 [Model.__init__] *)
Definition new_model (r : option results) : model :=
  {| m_built := false;
     m_solved := match r with None => false | Some _ => true end;
     m_results := match r with None => RNone | Some x => x end;
     m_term := None;
     m_backend := None |}.

(** How the construction of the backend ends: complete, with an error before the new backend
    is stored in the model ([get_model_backend]), or with an error while components are
    added to it. *)
Inductive build_end := BDone | BFailBefore (e : exn) | BFailAfter (e : exn).

(** model.py:271-312 [build] *)
Definition build (force : bool) (o : build_end) (m : model) : model * option exn :=
  if m_built m && negb force then (m, Some EModel)
  else match o with
       | BDone => ({| m_built := true; m_solved := m_solved m; m_results := m_results m;
                      m_term := m_term m; m_backend := Some true |}, None)
       | BFailBefore e => (m, Some e)
       | BFailAfter e => ({| m_built := m_built m; m_solved := m_solved m; m_results := m_results m;
                             m_term := m_term m; m_backend := Some false |}, Some e)
       end.

(** How a run of the solver in the chosen mode ends: data set and termination condition, or
    an error ([solve_spores] and [solve_operate] of the other files are instances). *)
Inductive solve_end := SDone (r : results) (term : string) | SFail (e : exn).

(** model.py:314-404 [solve] *)
Definition solve (thr : Q) (force : bool) (o : solve_end) (m : model) : model * option exn :=
  if negb (m_built m) then (m, Some EModel)
  else if has_data (m_results m) && negb force then (m, Some EModel)
  else match o with
       | SFail e => (m, Some e)
       | SDone r t =>
           let r' := if usable t then threshold_results thr r else r in
           ({| m_built := m_built m; m_solved := true; m_results := r'; m_term := Some t;
               m_backend := m_backend m |}, None)
       end.

(** model.py:419-423 [to_netcdf] and 33-49 [read_netcdf]: the "results" group exists even if
    it is empty, so it is never [None]. *)
Definition reload (m : model) : model := new_model (Some (m_results m)).

Inductive op := Build (force : bool) (o : build_end) | Solve (force : bool) (o : solve_end) | Reload.
Definition exec (thr : Q) (m : model) (x : op) : model :=
  match x with
  | Build f o => fst (build f o m)
  | Solve f o => fst (solve thr f o m)
  | Reload => reload m
  end.
Definition exec_all (thr : Q) (m : model) (l : list op) : model := fold_left (exec thr) l m.
