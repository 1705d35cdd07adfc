(** * pkg/processor/registry/registry.go

    Reflection is modelled by a description of the registered Go value.  The
    configuration library (go-ucfg) is a parameter: [unpack ty m] is
    ucfg.NewFrom(m) followed by Unpack into a zero value of the configuration
    struct type [ty] (registry.go:79-88).  Where constructors put their
    configuration in memory is not modelled: a constructor is a function of the
    configuration value. *)
From Verif Require Export GoMap.
From stdpp Require Import pretty.

(** What [reflect.Type] reports about a type. *)
Inductive gkind : Type := KFunc | KStruct | KPtr | KInterface | KOther (name : string).
Global Instance gkind_eq_dec : EqDecision gkind.
Proof. solve_decision. Defined.

Record gtype : Type := mkType {
  ty_name : string;
  ty_kind : gkind;
  ty_is_processor : bool;   (* Implements(processor.Processor) *)
  ty_is_error : bool        (* Implements(error) *)
}.

Section registry.
  Context {CfgVal Proc : Type}.

  (** A Go value handed to Register: nil, or a value with a type; for functions
      the parameter and result types and what a call returns.  [f_call] is only
      meaningful for one-argument functions over a struct; it yields the two
      results.  [f_nil]: the function value itself is nil. *)
  Record goval : Type := mkVal {
    f_kind : gkind;
    f_in : list gtype;
    f_out : list gtype;
    f_nil : bool;
    f_call : CfgVal → Outcome (Proc * option goerr);
    f_zero : CfgVal    (* the zero value of the parameter struct *)
  }.

  (** registry.go:46-51 processorConstructor *)
  Record constructor : Type := mkCtor {
    c_cfgtype : string;
    c_call : CfgVal → Outcome (Proc * option goerr);
    c_err_nilable : bool   (* the second result type has nil values *)
  }.

  Definition kind_text (k : gkind) : string :=
    match k with KFunc => "func" | KStruct => "struct" | KPtr => "ptr" | KInterface => "interface"
    | KOther n => n end.

  (** The kinds whose values reflect.Value.IsNil accepts. *)
  Definition nilable (k : gkind) : bool :=
    match k with
    | KPtr | KInterface | KFunc => true
    | KStruct => false
    | KOther n => bool_decide (n ∈ ["slice"; "map"; "chan"; "unsafe.Pointer"])
    end.

  (** registry.go:97-149 validateConfig.  [None] is the nil interface, whose
      reflect.Value has no Type: the call panics.  The last step calls the
      constructor with a zero configuration and ignores its results. *)
  Definition validateConfig (i : option goval) : Outcome (constructor + goerr) :=
    match i with
    | None => Panic
    | Some v =>
        if negb (bool_decide (f_kind v = KFunc))
        then Ok (inr (EMsg ("value must be a function, but got " +:+ kind_text (f_kind v))))
        else match f_in v with
        | [cfg] =>
            if negb (bool_decide (ty_kind cfg = KStruct))
            then Ok (inr (EMsg "function must be config struct"))
            else match f_out v with
            | [p; e] =>
                if negb (bool_decide (ty_kind p = KPtr))
                then Ok (inr (EMsg "function should return a pointer to a processor struct"))
                else if negb (ty_is_processor p)
                then Ok (inr (EMsg "processor must implement processor.Processor"))
                else if negb (ty_is_error e)
                then Ok (inr (EMsg "function should return an error"))
                else if f_nil v then Panic
                else match f_call v (f_zero v) with
                     | Panic => Panic
                     | Ok _ => Ok (inl (mkCtor (ty_name cfg) (f_call v) (nilable (ty_kind e))))
                     end
            | _ => Ok (inr (EMsg "function must return 2 values"))
            end
        | _ => Ok (inr (EMsg "function must accept one arg"))
        end
    end.

  (** registry.go:53-59 Registry and NewRegistry *)
  Definition registry : Type := gomap constructor.
  Definition NewRegistry : registry := [].

  Definition quote (s : string) : string := String (ascii_of_nat 34) (s +:+ String (ascii_of_nat 34) "").

  (** registry.go:61-71 Register.  (The %q quoting of the name in the error text is
      simplified to plain quotes.) *)
  Definition Register (r : registry) (name : string) (i : option goval)
    : Outcome (registry * option goerr) :=
    match mget name r with
    | Some _ => Ok (r, Some (EMsg (quote name +:+ " processor is already registered")))
    | None =>
        match validateConfig i with
        | Panic => Panic
        | Ok (inr err) => Ok (r, Some err)
        | Ok (inl pc) => Ok (mset name pc r, None)
        end
    end.

  (** registry.go:36-40 MustRegister: panics on error. *)
  Definition MustRegister (r : registry) (name : string) (i : option goval) : Outcome registry :=
    match Register r name i with
    | Panic => Panic
    | Ok (_, Some _) => Panic
    | Ok (r', None) => Ok r'
    end.

  (** registry.go:73-91 NewProcessor; 135-143 newProc: a non-nilable error type
      makes [out[1].IsNil()] panic. *)
  Definition NewProcessor {CfgMap : Type} (unpack : string → CfgMap → CfgVal + goerr) (r : registry) (name : string) (config : CfgMap)
    : Outcome (Proc + goerr) :=
    match mget name r with
    | None => Ok (inr (EMsg ("processor type " +:+ quote name +:+ " not found")))
    | Some pc =>
        match unpack (c_cfgtype pc) config with
        | inr err => Ok (inr err)
        | inl cfg =>
            match c_call pc cfg with
            | Panic => Panic
            | Ok (p, err) =>
                if negb (c_err_nilable pc) then Panic
                else match err with Some e => Ok (inr e) | None => Ok (inl p) end
            end
        end
    end.

  (** ** Histories of registrations *)
  Fixpoint register_all (r : registry) (l : list (string * option goval))
    : Outcome (registry * list (option goerr)) :=
    match l with
    | [] => Ok (r, [])
    | (name, i) :: l' =>
        match Register r name i with
        | Panic => Panic
        | Ok (r', e) =>
            match register_all r' l' with
            | Panic => Panic
            | Ok (r'', es) => Ok (r'', e :: es)
            end
        end
    end.

  (** ** Specification, independent of the code's checks *)
  (** A valid constructor: a function from one struct to (pointer implementing
      Processor, something implementing error). *)
  Definition valid_constructor (v : goval) (cfg p e : gtype) : Prop :=
    f_kind v = KFunc ∧ f_in v = [cfg] ∧ f_out v = [p; e] ∧ ty_kind cfg = KStruct ∧
    ty_kind p = KPtr ∧ ty_is_processor p = true ∧ ty_is_error e = true.

  Definition ctor_of (v : goval) (cfg e : gtype) : constructor :=
    mkCtor (ty_name cfg) (f_call v) (nilable (ty_kind e)).

  (** The first valid constructor registered under [name] in [l]. *)
  Definition first_valid (name : string) (l : list (string * option goval)) (c : constructor) : Prop :=
    ∃ before v after cfg p e,
      l = before ++ (name, Some v) :: after ∧ valid_constructor v cfg p e ∧ c = ctor_of v cfg e ∧
      ∀ v' cfg' p' e', (name, Some v') ∈ before → ¬ valid_constructor v' cfg' p' e'.

  Lemma validateConfig_ok i c :
    validateConfig i = Ok (inl c) →
    ∃ v cfg p e, i = Some v ∧ valid_constructor v cfg p e ∧ c = ctor_of v cfg e.
  Proof.
    unfold validateConfig, valid_constructor, ctor_of. intros H.
    destruct i as [v|]; [|done].
    destruct (bool_decide_reflect (f_kind v = KFunc)); [|done]. simpl in H.
    destruct (f_in v) as [|cfg [|]] eqn:?; try done.
    destruct (bool_decide_reflect (ty_kind cfg = KStruct)); [|done]. simpl in H.
    destruct (f_out v) as [|p [|er [|]]] eqn:?; try done.
    destruct (bool_decide_reflect (ty_kind p = KPtr)); [|done]. simpl in H.
    destruct (ty_is_processor p) eqn:?; [|done]. simpl in H.
    destruct (ty_is_error er) eqn:?; [|done]. simpl in H.
    destruct (f_nil v); [done|]. destruct (f_call v (f_zero v)); [|done].
    injection H as <-. exists v, cfg, p, er. by split_and!.
  Qed.

  Lemma validateConfig_err i e :
    validateConfig i = Ok (inr e) → ∃ v, i = Some v ∧ ∀ cfg p er, ¬ valid_constructor v cfg p er.
  Proof.
    unfold validateConfig, valid_constructor. intros H.
    destruct i as [v|]; [|done]. exists v. split; [done|].
    intros cfg p er (Hk & Hi & Ho & Hc & Hp & Hpp & He).
    rewrite Hk, Hi, Ho in H. rewrite bool_decide_true in H by done. simpl in H.
    rewrite bool_decide_true in H by done. simpl in H. rewrite bool_decide_true in H by done. simpl in H.
    rewrite Hpp, He in H. simpl in H. destruct (f_nil v); [done|].
    by destruct (f_call v (f_zero v)).
  Qed.

  Lemma first_valid_skip name l i n' c :
    (n' ≠ name ∨ ∀ v cfg p e, i = Some v → ¬ valid_constructor v cfg p e) →
    first_valid name ((n', i) :: l) c ↔ first_valid name l c.
  Proof.
    intros Hskip. split.
    - intros (before & v & after & cfg & p & e & Hl & Hv & Hc & Hno).
      destruct before as [|[n0 i0] before]; simpl in Hl.
      + injection Hl as -> -> ->. destruct Hskip as [?|Hs]; [done|]. by destruct (Hs v cfg p e eq_refl).
      + injection Hl as <- <- ->. exists before, v, after, cfg, p, e. split_and!; try done.
        intros v' cfg' p' e' Hin. apply (Hno v' cfg' p' e'). by right.
    - intros (before & v & after & cfg & p & e & -> & Hv & Hc & Hno).
      exists ((n', i) :: before), v, after, cfg, p, e. split_and!; try done.
      intros v' cfg' p' e' Hin. apply elem_of_cons in Hin as [Heq|Hin]; [|by eapply Hno].
      injection Heq as <- <-. destruct Hskip as [?|Hs]; [done|]. by apply Hs.
  Qed.

  Lemma first_valid_head name l v cfg p e c :
    valid_constructor v cfg p e →
    first_valid name ((name, Some v) :: l) c ↔ c = ctor_of v cfg e.
  Proof.
    intros Hv. split.
    - intros (before & v' & after & cfg' & p' & e' & Hl & Hv' & Hc & Hno).
      destruct before as [|[n0 i0] before]; simpl in Hl.
      + injection Hl as <- <-. destruct Hv as (?&Hi&Ho&_), Hv' as (?&Hi'&Ho'&_).
        rewrite Hi in Hi'. rewrite Ho in Ho'. by simplify_eq.
      + injection Hl as <- <- ->. destruct (Hno v cfg p e); [by left|done].
    - intros ->. exists [], v, l, cfg, p, e. split_and!; try done. intros ? ? ? ? Hin. by apply elem_of_nil in Hin.
  Qed.

  (** One step and histories. *)
  Lemma register_all_lookup l r r' es name :
    register_all r l = Ok (r', es) →
    match mget name r with
    | Some c => mget name r' = Some c
    | None => ∀ c, mget name r' = Some c ↔ first_valid name l c
    end.
  Proof.
    revert r r' es. induction l as [|[n i] l IH]; intros r r' es H; simpl in H.
    - injection H as <- <-. destruct (mget name r); [done|]. intros c. split; [done|].
      intros (before & v & after & cfg & p & e & Hl & _). by destruct before.
    - unfold Register in H. destruct (mget n r) as [c0|] eqn:Hn.
      + destruct (register_all r l) as [[r2 es2]|] eqn:E; [|done]. injection H as <- <-.
        specialize (IH _ _ _ E). destruct (mget name r) as [c|] eqn:Hname; [done|].
        intros c. rewrite IH. symmetry. apply first_valid_skip. left. intros ->. congruence.
      + destruct (validateConfig i) as [[pc|err]|] eqn:Hv; [| |done].
        * destruct (register_all (mset n pc r) l) as [[r2 es2]|] eqn:E; [|done]. injection H as <- <-.
          specialize (IH _ _ _ E).
          apply validateConfig_ok in Hv as (v & cfg & p & e & -> & Hval & ->).
          destruct (decide (name = n)) as [->|Hne].
          -- rewrite mget_mset_eq in IH. rewrite Hn. intros c. rewrite IH.
             rewrite first_valid_head by done. naive_solver.
          -- rewrite mget_mset_ne in IH by done. destruct (mget name r) as [c|] eqn:Hname; [done|].
             intros c. rewrite IH. symmetry. apply first_valid_skip. by left.
        * destruct (register_all r l) as [[r2 es2]|] eqn:E; [|done]. injection H as <- <-.
          specialize (IH _ _ _ E). destruct (mget name r) as [c|] eqn:Hname; [done|].
          intros c. rewrite IH. symmetry. apply first_valid_skip. right.
          apply validateConfig_err in Hv as (v & -> & Hno). intros v' cfg p e' [= <-]. apply Hno.
  Qed.
End registry.
Arguments goval : clear implicits.
Arguments constructor : clear implicits.
Arguments registry : clear implicits.
