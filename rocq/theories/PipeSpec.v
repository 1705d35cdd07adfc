(** * Specification: what a pipeline of built-in processors does to the fields of an
    event.

    Written over nested maps only: [spec_path] (KeyPath.v) splits a dotted key, [tget]
    (Tree.v) looks a field up, [spec_put] (EventOps.v) stores one; no heap, no pointers.
    A function of the configuration and of the fields: it gives the new fields, the
    error, and the counters incremented, in order. *)
From Verif Require Export ProcRun Pipeline.

(** The built-in processors with their options. *)
Inductive bconf : Type :=
| BLowercase (f : string → string) (field target : string)   (* [f]: strings.ToLower *)
| BUppercase (f : string → string) (field target : string)   (* [f]: strings.ToUpper *)
| BAppend (field value : string)
| BSet (target : string) (value : tree)       (* set, a value configured *)
| BCopy (from target : string)                (* set, copy_from and no value *)
| BSetNothing (target : string)               (* set, neither *)
| BRemove (fields : list string)
| BCommunityID.

(** [Crashes]: the call panics.  [Shares]: two fields would show the same array or
    object from here on, which a map of fields cannot say; nothing is specified. *)
Inductive verdict (A : Type) : Type := Gives (a : A) | Crashes | Shares.
Arguments Gives {A}. Arguments Crashes {A}. Arguments Shares {A}.
Definition vbind {A B} (x : verdict A) (f : A → verdict B) : verdict B :=
  match x with Gives a => f a | Crashes => Crashes | Shares => Shares end.

Notation fields_err := (gomap tree * option goerr)%type.
(** Reading and storing a field. *)
Definition read (key : string) (m : gomap tree) : verdict (option tree) :=
  match tget (spec_path key) m with Panic => Crashes | Ok o => Gives o end.
Definition store (key : string) (t : tree) (m : gomap tree) : verdict fields_err :=
  match spec_put true (spec_path key) t m with Panic => Crashes | Ok (m', r) => Gives (m', s_err r) end.
Definition container (t : tree) : bool :=
  match t with TArr _ | TNilArr | TObj _ => true | _ => false end.

Definition change_case (msg : string) (f : string → string) (field target : string) (m : gomap tree) : verdict fields_err :=
  vbind (read field m) (λ o,
    match o with
    | None => Gives (m, Some (EKeyMissing field))
    | Some (TStr s) => store (if decide (target = "") then field else target) (TStr (f s)) m
    | Some _ => Gives (m, Some (EMsg msg))
    end).

Definition sem (b : bconf) (m : gomap tree) : verdict fields_err :=
  match b with
  | BLowercase f field target => change_case "value to lowercase is not a string" f field target m
  | BUppercase f field target => change_case "value to uppercase is not a string" f field target m
  | BAppend field value =>
      vbind (read field m) (λ o,
        match o with
        | None => vbind (store field (TArr [TStr value]) m) (λ '(m', _), Gives (m', None)) (* errors are lost *)
        | Some (TArr l) => store field (TArr (l ++ [TStr value])) m
        | Some TNilArr => store field (TArr [TStr value]) m
        | Some (TStr _) => Gives (m, None) (* lost *)
        | Some _ => Gives (m, Some (EMsg "value to append to is not array"))
        end)
  | BSet target t => store target t m
  | BCopy from target =>
      vbind (read from m) (λ o,
        match o with
        | None => Gives (m, Some (EKeyMissing from))
        | Some t => if container t then Shares else store target t m
        end)
  | BSetNothing target => Gives (m, if decide (spec_path target = []) then Some err_empty else None)
  | BRemove _ | BCommunityID => Gives (m, None)
  end.

(** ** Pipelines *)
(** A processor with its common options. *)
Inductive bproc : Type :=
| BProc (id : string) (ignore_failure ignore_missing : bool) (on_failure : list bproc) (b : bconf).
Record bpipe : Type := mkBPipe { bp_processors : list bproc; bp_on_failure : list bproc }.

(** What happens to the state [S] of an event, given what each single processor does to
    it: the new state, the error, and the counters incremented. *)
Section pipelines.
Context {S : Type} (single : bconf → S → verdict (S * option goerr)).
Notation result := (S * option goerr * list (string * metric))%type.
(** One after the other until one fails; [err] if there are none. *)
Section in_turn.
Context (step : bproc → S → verdict result).
Fixpoint in_turn (l : list bproc) (m : S) (err : option goerr) : verdict result :=
  match l with
  | [] => Gives (m, err, [])
  | b :: l' =>
      vbind (step b m) (λ '(m1, err1, lg1),
        match err1 with
        | Some e => Gives (m1, Some e, lg1)
        | None => vbind (in_turn l' m1 None) (λ '(m2, err2, lg2), Gives (m2, err2, lg1 ++ lg2))
        end)
  end.
End in_turn.
Fixpoint run_proc (b : bproc) (m : S) : verdict result :=
  match b with
  | BProc id ignore_failure ignore_missing on_failure c =>
      vbind (single c m) (λ '(m1, err),
        match err with
        | None => Gives (m1, None, [(id, MIn); (id, MOut)])
        | Some e =>
            if ignore_missing && is_missing e then Gives (m1, None, [(id, MIn); (id, MOut)])
            else
              vbind (in_turn run_proc on_failure m1 (Some e)) (λ '(m2, err2, lg),
                match err2 with
                | Some e2 =>
                    if ignore_failure then Gives (m2, None, (id, MIn) :: lg ++ [(id, MOut)])
                    else Gives (m2, Some e2, (id, MIn) :: lg ++ [(id, MErrors)])
                | None => Gives (m2, None, (id, MIn) :: lg ++ [(id, MErrors)])
                end)
        end)
  end.
Definition run_pipe (b : bpipe) (m : S) : verdict result :=
  vbind (in_turn run_proc (bp_processors b) m None) (λ '(m1, err, lg1),
    match err with
    | None => Gives (m1, None, lg1)
    | Some e => vbind (in_turn run_proc (bp_on_failure b) m1 (Some e)) (λ '(m2, err2, lg2), Gives (m2, err2, lg1 ++ lg2))
    end).
End pipelines.
Notation outcome := (gomap tree * option goerr * list (string * metric))%type.
Notation sem_proc := (run_proc sem).
Notation sem_pipe := (run_pipe sem).

(** ** Which pipelines these are *)
(** The cell at [p] holds the plain value [t]. *)
Definition holds (h : heap) (p : ptr) (t : tree) : Prop := ∃ v, hvals h !! p = Some v ∧ scalar_tree v = Some t.
Inductive runs_as (h : heap) : bconf → prog (option goerr) → Prop :=
| ra_lowercase f field target : runs_as h (BLowercase f field target) (lowercase_process f (mkCase field target))
| ra_uppercase f field target : runs_as h (BUppercase f field target) (uppercase_process f (mkCase field target))
| ra_append field value : runs_as h (BAppend field value) (append_process (mkAppend field value))
| ra_set from target p t : holds h p t → t ≠ TNull → runs_as h (BSet target t) (set_process (mkSet from target p))
| ra_copy from target p : holds h p TNull → from ≠ "" → runs_as h (BCopy from target) (set_process (mkSet from target p))
| ra_nothing target p : holds h p TNull → runs_as h (BSetNothing target) (set_process (mkSet "" target p))
| ra_remove l : runs_as h (BRemove l) (remove_process (mkRemove l))
| ra_community : runs_as h BCommunityID community_id_process.
Inductive built_as (h : heap) : bproc → pproc → Prop :=
| ba_proc id cond ignf ignm onf onf' b c : runs_as h b c → Forall2 (built_as h) onf onf' →
    built_as h (BProc id ignf ignm onf b) (PProc id cond ignf ignm onf' c).
Definition pipe_as (h : heap) (b : bpipe) (pl : pipeline) : Prop :=
  Forall2 (built_as h) (bp_processors b) (pl_processors pl) ∧ Forall2 (built_as h) (bp_on_failure b) (pl_onf pl).

(** The options of all processors, the failure handlers' included. *)
Fixpoint confs (b : bproc) : list bconf :=
  match b with BProc _ _ _ on_failure c => c :: concat (map confs on_failure) end.
Definition pipe_confs (b : bpipe) : list bconf := concat (map confs (bp_processors b)) ++ concat (map confs (bp_on_failure b)).

(** Event [i] shows [m] in [w], made of the containers [fp]. *)
Definition showing (w : world) (i : nat) (m : gomap tree) (fp : list loc) : Prop :=
  ∃ e, w_events w !! i = Some e ∧ ev_rep (w_heap w) e m fp.
