(** * Processors as programs over the processor.Event interface.

    pkg/processor/api.go:28-42: a processor sees the event only through the
    interface [processor.Event] (Put, TryPut, Get, Delete, Cancel, Drop); besides
    that it may follow and mutate the [*event.Value] pointers it gets, allocate
    values, keep private state, and read its environment (clock, network, ...).
    [prog] is the type of all such programs that terminate; a program that never
    returns is not modelled.  Private state lives in heap cells the program owns. *)
From Verif Require Export EventHeap.

Inductive prog (A : Type) : Type :=
| Ret (a : A)
| PPut (key : string) (v : option ptr) (k : option ptr → option goerr → prog A)
| PTryPut (key : string) (v : option ptr) (k : option ptr → option goerr → prog A)
| PGet (key : string) (k : option ptr → prog A)
| PDelete (key : string) (k : option ptr → prog A)
| PCancel (k : prog A)
| PDrop (k : prog A)
| PNew (v : Value) (k : ptr → prog A)                 (* &event.Value{...} *)
| PNewMap (k : mref → prog A)                         (* map[string]*event.Value{} *)
| PLoad (p : option ptr) (k : Value → prog A)         (* *p, panics when nil *)
| PStore (p : option ptr) (v : Value) (k : prog A)    (* *p = v *)
| PMapRead (r : option mref) (k : gomap (option ptr) → prog A)
| PMapWrite (r : option mref) (key : string) (v : option ptr) (k : prog A)
| PMapDelete (r : option mref) (key : string) (k : prog A)
| PInput (k : nat → prog A)                           (* anything else observable *)
| PPanic.

Arguments Ret {A}. Arguments PPut {A}. Arguments PTryPut {A}. Arguments PGet {A}.
Arguments PDelete {A}. Arguments PCancel {A}. Arguments PDrop {A}. Arguments PNew {A}.
Arguments PNewMap {A}. Arguments PLoad {A}. Arguments PStore {A}. Arguments PMapRead {A}.
Arguments PMapWrite {A}. Arguments PMapDelete {A}. Arguments PInput {A}. Arguments PPanic {A}.

(** ** The state processors run in *)

(** The four counters of a component: pkg/pipeline/processor.go:42-45. *)
Inductive metric : Type := MDiscarded | MErrors | MIn | MOut.
Global Instance metric_eq_dec : EqDecision metric.
Proof. solve_decision. Defined.

(** Everything shared by all calls: the heap of values and maps, the events
    (a [*event.Event] is an index), the input stream, and the log of counter
    increments, oldest first: a counter's value is the number of its entries. *)
Record world : Type := mkWorld {
  w_heap : heap;
  w_events : list event;
  w_env : list nat;
  w_log : list (string * metric)
}.

(** pkg/pipeline/event.go:29-33 pipelineEvent. *)
Record pevent : Type := mkPEvent {
  pe_data : option nat;
  pe_cancelled : bool;
  pe_dropped : bool
}.

Definition set_heap (w : world) (h : heap) : world :=
  mkWorld h (w_events w) (w_env w) (w_log w).

(** The event [e.data] points to; nil panics when a method touches it. *)
Definition evt_of (w : world) (pe : pevent) : option (nat * event) :=
  match pe_data pe with
  | None => None
  | Some i => match w_events w !! i with Some e => Some (i, e) | None => None end
  end.

(** pkg/pipeline/event.go:35-57: the methods of pipelineEvent, which delegate to
    [e.data].  Line 55: Drop has a value receiver, so it sets [dropped] on a copy. *)
Definition pe_Cancel (pe : pevent) : pevent := mkPEvent (pe_data pe) true (pe_dropped pe).
Definition pe_Drop (pe : pevent) : pevent := pe.

(** Running a program. *)
Fixpoint run_prog {A} (c : prog A) (w : world) (pe : pevent)
  : Outcome (world * pevent * A) :=
  match c with
  | Ret a => Ok (w, pe, a)
  | PPut key v k =>
      match evt_of w pe with
      | None => Panic
      | Some (i, e) =>
          match Put (w_heap w) e key v with
          | Panic => Panic
          | Ok r => run_prog (k (put_old r) (put_err r))
                      (mkWorld (put_heap r) (<[i := put_event r]> (w_events w)) (w_env w) (w_log w)) pe
          end
      end
  | PTryPut key v k =>
      match evt_of w pe with
      | None => Panic
      | Some (i, e) =>
          match TryPut (w_heap w) e key v with
          | Panic => Panic
          | Ok r => run_prog (k (put_old r) (put_err r))
                      (mkWorld (put_heap r) (<[i := put_event r]> (w_events w)) (w_env w) (w_log w)) pe
          end
      end
  | PGet key k =>
      match evt_of w pe with
      | None => Panic
      | Some (i, e) =>
          match Get (w_heap w) e key with
          | Panic => Panic
          | Ok (h, v) => run_prog (k v) (set_heap w h) pe
          end
      end
  | PDelete key k =>
      match evt_of w pe with
      | None => Panic
      | Some (i, e) =>
          match EvDelete (w_heap w) e key with
          | Panic => Panic
          | Ok (h, v) => run_prog (k v) (set_heap w h) pe
          end
      end
  | PCancel k => run_prog k w (pe_Cancel pe)
  | PDrop k => run_prog k w (pe_Drop pe)
  | PNew v k => let '(h, p) := alloc_val (w_heap w) v in run_prog (k p) (set_heap w h) pe
  | PNewMap k => let '(h, r) := alloc_map (w_heap w) in run_prog (k r) (set_heap w h) pe
  | PLoad p k =>
      match deref (w_heap w) p with Panic => Panic | Ok v => run_prog (k v) w pe end
  | PStore p v k =>
      match p with
      | Some q => if decide (q < length (hvals (w_heap w)))
                  then run_prog k (set_heap w (set_val (w_heap w) q v)) pe else Panic
      | None => Panic
      end
  | PMapRead r k => run_prog (k (map_of (w_heap w) r)) w pe
  | PMapWrite r key v k =>
      match map_write (w_heap w) r key v with
      | Panic => Panic
      | Ok h => run_prog k (set_heap w h) pe
      end
  | PMapDelete r key k => run_prog k (set_heap w (map_delete (w_heap w) r key)) pe
  | PInput k =>
      match w_env w with
      | [] => run_prog (k 0) w pe
      | x :: env => run_prog (k x) (mkWorld (w_heap w) (w_events w) env (w_log w)) pe
      end
  | PPanic => Panic
  end.

(** [v.Array = append(v.Array, x...)] *)
Definition with_arr (v : Value) (a : option (list (option ptr))) : Value :=
  mkValue (v_int v) (v_uint v) (v_float v) (v_ts v) (v_str v) a (v_obj v) (v_bool v) (v_type v).
Definition arr_of (v : Value) : list (option ptr) :=
  match v_arr v with None => [] | Some l => l end.

(** ** pkg/processor/append/append.go:33-48 Config (IgnoreMissing and
    AllowDuplicates are not read by Process) and append/process.go:27-40. *)
Record append_config : Type := mkAppend { ap_field : string; ap_value : string }.

Definition append_process (c : append_config) : prog (option goerr) :=
  let finish (p : ptr) : prog (option goerr) :=
    PNew (mkString (ap_value c)) (λ s,
      PLoad (Some p) (λ a,
        PStore (Some p) (with_arr a (Some (arr_of a ++ [Some s]))) (Ret None))) in
  PGet (ap_field c) (λ v,
    match v with
    | None => PNew (mkArray []) (λ p, PPut (ap_field c) (Some p) (λ _ _, finish p))
    | Some p =>
        PLoad v (λ x,
          if N.eqb (v_type x) StringType then PNew (mkArray [v]) finish
          else if negb (N.eqb (v_type x) ArrayType)
               then Ret (Some (EMsg "value to append to is not array"))
               else finish p)
    end).

(** ** pkg/processor/lowercase/process.go:28-47; [tolower] is strings.ToLower. *)
Record case_config : Type := mkCase { cs_field : string; cs_target : string }.

Definition case_process (msg : string) (f : string → string) (c : case_config)
  : prog (option goerr) :=
  PGet (cs_field c) (λ v,
    match v with
    | None => Ret (Some (EKeyMissing (cs_field c)))
    | Some _ =>
        PLoad v (λ x,
          if negb (N.eqb (v_type x) StringType) then Ret (Some (EMsg msg))
          else
            let out := f (v_str x) in
            let target := if String.eqb (cs_target c) "" then cs_field c else cs_target c in
            PNew (mkString out) (λ p, PPut target (Some p) (λ _ err, Ret err)))
    end).

Definition lowercase_process (tolower : string → string) (c : case_config) :=
  case_process "value to lowercase is not a string" tolower c.
(** pkg/processor/uppercase/process.go:28-47. *)
Definition uppercase_process (toupper : string → string) (c : case_config) :=
  case_process "value to uppercase is not a string" toupper c.

(** ** pkg/processor/set/process.go:25-38.  [se_value] is the address of
    [p.config.Value]: the processor stores that very pointer. *)
Record set_config : Type := mkSet {
  se_copy_from : string; se_target : string; se_value : ptr }.

Definition set_process (c : set_config) : prog (option goerr) :=
  PLoad (Some (se_value c)) (λ x,
    if negb (N.eqb (v_type x) NullType)
    then PPut (se_target c) (Some (se_value c)) (λ _ err, Ret err)
    else if negb (String.eqb (se_copy_from c) "")
    then PGet (se_copy_from c) (λ v,
           match v with
           | None => Ret (Some (EKeyMissing (se_copy_from c)))
           | Some _ => PPut (se_target c) v (λ _ err, Ret err)
           end)
    else PPut (se_target c) None (λ _ err, Ret err)).

(** ** pkg/processor/remove/remove.go:69-72 and
    pkg/processor/community_id/community_id.go:117-120: not implemented. *)
Record remove_config : Type := mkRemove { rm_fields : list string }.
Definition remove_process (c : remove_config) : prog (option goerr) := Ret None.
Definition community_id_process : prog (option goerr) := Ret None.

(** ** pkg/eventutil/event.go:29-54 Append. *)
Definition eventutil_append (key : string) (item : option ptr) : prog (option goerr) :=
  match item with
  | None => Ret None
  | Some _ =>
      let finish (t : ptr) : prog (option goerr) :=
        PLoad item (λ x,
          PLoad (Some t) (λ a,
            let added := if N.eqb (v_type x) ArrayType then arr_of x else [item] in
            let arr := match added with [] => v_arr a | _ => Some (arr_of a ++ added) end in
            PStore (Some t) (with_arr a arr) (PPut key (Some t) (λ _ err, Ret err)))) in
      PGet key (λ v,
        match v with
        | None => PNew (mkArray []) finish
        | Some t =>
            PLoad v (λ y, if negb (N.eqb (v_type y) ArrayType) then PNew (mkArray [v]) finish
                          else finish t)
        end)
  end.
