(** * pkg/pipeline: building a pipeline from its configuration. *)
From Verif Require Export Registry Pipeline Itoa.

Section new.
  (** [CfgMap] is map[string]interface{}, [CfgVal] a configuration struct.  The
      registry is the package-level [constructors] (registry.go:34). *)
  Context {CfgMap CfgVal : Type}.
  Context (emptyCfg : CfgMap).

  (** What [ignores] (processor.go:176-199) sees of a processor by reflection: its
      Config method, if any, with its numbers of parameters and results, whether
      the first result is a struct, and the values of its fields IgnoreMissing and
      IgnoreFailure when they exist and are booleans. *)
  Record config_method : Type := mkCM {
    cm_nin : nat;
    cm_nout : nat;
    cm_struct : bool;
    cm_ignm : option bool;
    cm_ignf : option bool
  }.
  Record proc : Type := mkProc {
    pr_prog : prog (option goerr);
    pr_config : option config_method
  }.

  Context (unpack : string → CfgMap → CfgVal + goerr).
  Context (reg : registry CfgVal proc).

  (** pkg/pipeline/config.go:33-38 ProcessorOptionConfig and config.go:31
      ProcessorConfig = map[string]*ProcessorOptionConfig (sorted association
      list; [None] is a nil pointer). *)
  Inductive optcfg : Type :=
  | OptCfg (o_id : string) (o_if : string) (o_onf : list (gomap (option optcfg))) (o_cfg : CfgMap).
  Notation pcfg := (gomap (option optcfg)).

  Definition o_if (o : optcfg) := let 'OptCfg _ c _ _ := o in c.
  Definition o_onf (o : optcfg) := let 'OptCfg _ _ l _ := o in l.
  Definition o_cfg (o : optcfg) := let 'OptCfg _ _ _ m := o in m.
  Definition zeroOpt : optcfg := OptCfg "" "" [] emptyCfg.

  (** config.go:24-29 Config *)
  Record config : Type := mkConfig {
    cf_id : string;
    cf_desc : string;
    cf_procs : list pcfg;
    cf_onf : list pcfg
  }.

  (** processor.go:176-199 ignores *)
  Definition ignores (p : proc) : Outcome ((option bool * option bool) + goerr) :=
    match pr_config p with
    | None => Ok (inr (EMsg "error Config() method not found"))
    | Some m =>
        if negb (Nat.eqb (cm_nout m) 1) then Ok (inr (EMsg "error Config() must return one value"))
        else if negb (Nat.eqb (cm_nin m) 0) then Panic  (* m.Call(nil): too few arguments *)
        else if negb (cm_struct m) then Panic           (* FieldByName on a non-struct *)
        else Ok (inl (cm_ignm m, cm_ignf m))
    end.

  (** processor.go:113: the component id *)
  Definition component_id (baseID : string) (i : nat) (ty : string) : string :=
    baseID +:+ "[" +:+ itoa (N.of_nat i) +:+ "]." +:+ ty.

  Definition default_false (o : option bool) : bool := match o with Some b => b | None => false end.

  (** processor.go:111-174 newPipelineProcessor, with the construction of the
      on_failure list passed in. *)
  Definition new_proc_with (baseID : string) (i : nat) (ty : string) (cond : string) (cfg : CfgMap)
      (onf : string → Outcome (list pproc + goerr)) : Outcome (pproc + goerr) :=
    let id := component_id baseID i ty in
    match NewProcessor unpack reg ty cfg with
    | Panic => Panic
    | Ok (inr err) => Ok (inr (EWrap ("failed constructing processor with ID " +:+ id +:+ ": ") err))
    | Ok (inl p) =>
        match ignores p with
        | Panic => Panic
        | Ok (inr err) => Ok (inr err)
        | Ok (inl (im, ifl)) =>
            match onf (id +:+ ".on_failure") with
            | Panic => Panic
            | Ok (inr err) => Ok (inr err)
            | Ok (inl ps) =>
                Ok (inl (PProc id cond (default_false ifl) (default_false im) ps (pr_prog p)))
            end
        end
    end.

  (** config.go:43-59 getProcessor and processor.go:88-109 newPipelineProcessors:
      the loop, with the constructor of one processor passed in. *)
  Section loop.
    Context (new1 : string → nat → string → optcfg → Outcome (pproc + goerr)).
    Fixpoint new_procs (baseID : string) (i : nat) (l : list pcfg) : Outcome (list pproc + goerr) :=
      match l with
      | [] => Ok (inl [])
      | c :: l' =>
          match c with
          | [] => Ok (inr (EMsg "processor cannot be empty"))
          | (k, v) :: c' =>
              match c' with
              | _ :: _ => Ok (inr (EMsg "only one processor must be specified"))
              | [] =>
                  match
                    match v with
                    | Some o => new1 baseID i k o
                    | None => new_proc_with baseID i k "" emptyCfg (λ _, Ok (inl []))
                    end
                  with
                  | Panic => Panic
                  | Ok (inr err) => Ok (inr err)
                  | Ok (inl p) =>
                      match new_procs baseID (S i) l' with
                      | Panic => Panic
                      | Ok (inr err) => Ok (inr err)
                      | Ok (inl ps) => Ok (inl (p :: ps))
                      end
                  end
              end
          end
      end.
  End loop.

  Fixpoint new_proc (baseID : string) (i : nat) (ty : string) (o : optcfg) {struct o}
    : Outcome (pproc + goerr) :=
    match o with
    | OptCfg _ cond onf cfg =>
        new_proc_with baseID i ty cond cfg (λ base, new_procs new_proc base 0 onf)
    end.

  (** pipeline.go:34-54 New *)
  Definition New (c : config) : Outcome (pipeline + goerr) :=
    if String.eqb (cf_id c) "" then Ok (inr (EMsg "pipeline must have a non-empty id"))
    else
      match new_procs new_proc (cf_id c +:+ ".processors") 0 (cf_procs c) with
      | Panic => Panic
      | Ok (inr err) => Ok (inr err)
      | Ok (inl ps) =>
          match new_procs new_proc (cf_id c +:+ ".on_failure") 0 (cf_onf c) with
          | Panic => Panic
          | Ok (inr err) => Ok (inr err)
          | Ok (inl onf) => Ok (inl (mkPipeline (cf_id c) ps onf))
          end
      end.
End new.
Arguments optcfg : clear implicits.
Arguments config : clear implicits.
