(** * pkg/pipeline: running a pipeline. *)
From Verif Require Export Processors.

(** pkg/pipeline/processor.go:31-46 pipelineProcessor. *)
Inductive pproc : Type :=
| PProc (p_id : string) (p_cond : string) (p_ignf p_ignm : bool)
        (p_onf : list pproc) (p_prog : prog (option goerr)).

Definition p_id (p : pproc) := let 'PProc i _ _ _ _ _ := p in i.
Definition p_cond (p : pproc) := let 'PProc _ c _ _ _ _ := p in c.
Definition p_ignf (p : pproc) := let 'PProc _ _ f _ _ _ := p in f.
Definition p_ignm (p : pproc) := let 'PProc _ _ _ m _ _ := p in m.
Definition p_onf (p : pproc) := let 'PProc _ _ _ _ o _ := p in o.
Definition p_prog (p : pproc) := let 'PProc _ _ _ _ _ c := p in c.

(** [counter.Inc()] *)
Definition inc (w : world) (id : string) (m : metric) : world :=
  mkWorld (w_heap w) (w_events w) (w_env w) (w_log w ++ [(id, m)]).

Definition pres : Type := world * pevent * option goerr.

(** The loops of processor.go:66-70 and pipeline.go:83-88, 91-96: run [l] until
    one fails, returning the last error. *)
Section loop.
  Context (process : pproc → world → pevent → Outcome pres).
  Fixpoint run_list (l : list pproc) (w : world) (pe : pevent) (err : option goerr)
    : Outcome pres :=
    match l with
    | [] => Ok (w, pe, err)
    | p :: l' =>
        match process p w pe with
        | Panic => Panic
        | Ok (w', pe', None) => run_list l' w' pe' None
        | Ok (w', pe', Some e) => Ok (w', pe', Some e)
        end
    end.
End loop.

(** processor.go:48-86 pipelineProcessor.Process. *)
Fixpoint pp_process (p : pproc) (w : world) (pe : pevent) {struct p} : Outcome pres :=
  match p with
  | PProc id _ ignf ignm onf c =>
      match run_prog c (inc w id MIn) pe with
      | Panic => Panic
      | Ok (w1, pe1, None) => Ok (inc w1 id MOut, pe1, None)
      | Ok (w1, pe1, Some err) =>
          if pe_dropped pe1 then Ok (inc w1 id MDiscarded, pe1, None)
          else if ignm && is_missing err then Ok (inc w1 id MOut, pe1, None)
          else
            match run_list pp_process onf w1 pe1 (Some err) with
            | Panic => Panic
            | Ok (w2, pe2, err2) =>
                if ignf && (match err2 with Some _ => true | None => false end)
                then Ok (inc w2 id MOut, pe2, None)
                else Ok (inc w2 id MErrors, pe2, err2)
            end
      end
  end.

(** pipeline.go:27-31 Pipeline. *)
Record pipeline : Type := mkPipeline {
  pl_id : string;
  pl_processors : list pproc;
  pl_onf : list pproc
}.

(** pipeline.go:81-104 process. *)
Definition pl_process (pl : pipeline) (w : world) (pe : pevent) : Outcome pres :=
  match run_list pp_process (pl_processors pl) w pe None with
  | Panic => Panic
  | Ok (w1, pe1, None) => Ok (w1, pe1, None)
  | Ok (w1, pe1, Some err) =>
      (* an empty onFailure list leaves err as it is *)
      run_list pp_process (pl_onf pl) w1 pe1 (Some err)
  end.

(** pipeline.go:63-75 Process: the returned [*event.Event] and error. *)
Definition Process (pl : pipeline) (w : world) (evt : option nat)
  : Outcome (world * option nat * option goerr) :=
  match pl_process pl w (mkPEvent evt false false) with
  | Panic => Panic
  | Ok (w1, pe1, Some err) => Ok (w1, None, Some err)
  | Ok (w1, pe1, None) =>
      if pe_dropped pe1 then Ok (w1, None, None) else Ok (w1, pe_data pe1, None)
  end.

(** pipeline.go:106-108 ID. *)
Definition pl_ID (pl : pipeline) : string := pl_id pl.

(** ** Observing *)
Definition count (id : string) (m : metric) (l : list (string * metric)) : nat :=
  length (filter (λ x, x = (id, m)) l).

(** All processors of a tree, itself first, then its handlers: the order of
    pipeline.go:129-135 visitProcessor. *)
Fixpoint pp_all (p : pproc) : list pproc :=
  match p with
  | PProc _ _ _ _ onf _ =>
      p :: (fix go (l : list pproc) : list pproc :=
              match l with [] => [] | q :: l' => pp_all q ++ go l' end) onf
  end.
Definition pps_all (l : list pproc) : list pproc := concat (map pp_all l).
Definition pl_all (pl : pipeline) : list pproc := pps_all (pl_processors pl) ++ pps_all (pl_onf pl).

(** pipeline.go:123-127 visitProcessors and pipeline.go:110-121 Metrics. *)
Definition Metrics (pl : pipeline) : list (string * metric) :=
  concat (map (λ p, [(p_id p, MDiscarded); (p_id p, MErrors); (p_id p, MIn); (p_id p, MOut)])
              (pps_all (pl_processors pl))).
