(** * The built-in processors' constructors and registration, and pipelines built from
    definitions that use them. *)
From Verif Require Export PipeSem PipelineNewFacts.

(** ** The model *)
(** The configuration structs.
    pkg/processor/lowercase/lowercase.go:34-47, uppercase/uppercase.go:34-47,
    append/append.go:35-49, set/set.go:35-53, remove/remove.go:34-41,
    community_id/community_id.go:35-70.  [p]: where the set processor's Value is
    ([event.Value] inside the processor struct).  Of community_id only IgnoreFailure
    is read by anything. *)
Inductive bcfg : Type :=
| CfLowercase (field target : string) (ignore_missing : bool)
| CfUppercase (field target : string) (ignore_missing : bool)
| CfAppend (allow_duplicates : bool) (field value : string) (ignore_missing : bool)
| CfSet (copy_from target : string) (p : ptr) (ignore_failure ignore_missing : bool)
| CfRemove (fields : list string) (ignore_missing : bool)
| CfCommunityID (ignore_failure : bool).
(** The name of the struct type: each package has its own Config. *)
Definition cfg_type (v : bcfg) : string :=
  match v with
  | CfLowercase _ _ _ => "lowercase.Config" | CfUppercase _ _ _ => "uppercase.Config" | CfAppend _ _ _ _ => "append.Config"
  | CfSet _ _ _ _ _ => "set.Config" | CfRemove _ _ => "remove.Config" | CfCommunityID _ => "community_id.Config"
  end.
Section builtins.
Context (lo up : string → string). (* strings.ToLower, strings.ToUpper *)
(** The Process methods: process.go of each package. *)
Definition cfg_prog (v : bcfg) : prog (option goerr) :=
  match v with
  | CfLowercase field target _ => lowercase_process lo (mkCase field target)
  | CfUppercase field target _ => uppercase_process up (mkCase field target)
  | CfAppend _ field value _ => append_process (mkAppend field value)
  | CfSet from target p _ _ => set_process (mkSet from target p)
  | CfRemove l _ => remove_process (mkRemove l)
  | CfCommunityID _ => community_id_process
  end.
(** What reflection finds in the struct Config() returns. *)
Definition cfg_ignm (v : bcfg) : option bool :=
  match v with
  | CfLowercase _ _ b | CfUppercase _ _ b | CfAppend _ _ _ b | CfSet _ _ _ _ b | CfRemove _ b => Some b
  | CfCommunityID _ => None
  end.
Definition cfg_ignf (v : bcfg) : option bool :=
  match v with CfSet _ _ _ b _ | CfCommunityID b => Some b | _ => None end.
(** New of each package: lowercase.go:57-60, uppercase.go:57-60, append.go:59-62,
    set.go:62-65, remove.go:50-53, community_id.go:95-98; and Config(). *)
Definition construct (v : bcfg) : Outcome (proc * option goerr) :=
  Ok (mkProc (cfg_prog v) (Some (mkCM 0 1 true (cfg_ignm v) (cfg_ignf v))), None).
(** The function value New given to MustRegister (the init function of each package).
    Called with another struct reflect.Value.Call would panic. *)
Definition new_func (zero : bcfg) : goval bcfg proc :=
  mkVal KFunc [mkType (cfg_type zero) KStruct false false]
        [mkType "*Processor" KPtr true false; mkType "error" KInterface false true] false
        (λ v, if String.eqb (cfg_type v) (cfg_type zero) then construct v else Panic) zero.
Definition builtin_zero (name : string) : option bcfg :=
  if String.eqb name "lowercase" then Some (CfLowercase "" "" false)
  else if String.eqb name "uppercase" then Some (CfUppercase "" "" false)
  else if String.eqb name "append" then Some (CfAppend false "" "" false)
  else if String.eqb name "set" then Some (CfSet "" "" 0 false false)
  else if String.eqb name "remove" then Some (CfRemove [] false)
  else if String.eqb name "community_id" then Some (CfCommunityID false)
  else None.
(** The init functions of the imported packages [names], in order; a second registration
    of a name panics. *)
Fixpoint init_all (names : list string) (r : registry bcfg proc) : Outcome (registry bcfg proc) :=
  match names with
  | [] => Ok r
  | name :: names' =>
      match builtin_zero name with
      | None => Panic (* no such package *)
      | Some zero =>
          match MustRegister r name (Some (new_func zero)) with
          | Panic => Panic
          | Ok r' => init_all names' r'
          end
      end
  end.

(** ** Registration: proofs *)
Lemma builtin_type name zero : builtin_zero name = Some zero → cfg_type zero = name +:+ ".Config".
Proof.
  unfold builtin_zero.
  repeat match goal with |- (if String.eqb ?a ?b then _ else _) = _ → _ => destruct (String.eqb_spec a b) as [->|?] end; by intros [= <-].
Qed.
Lemma register_new r name zero : mget name r = None → 
  MustRegister r name (Some (new_func zero)) = Ok (mset name (mkCtor (cfg_type zero) (f_call (new_func zero)) true) r).
Proof.
  intros H. unfold MustRegister, Register. rewrite H. unfold validateConfig, new_func. cbn -[String.eqb cfg_type]. by rewrite String.eqb_refl.
Qed.
Lemma init_all_ok l : ∀ r, NoDup l → (∀ x, x ∈ l → builtin_zero x ≠ None) → (∀ x, x ∈ l → mget x r = None) →
  ∃ r', init_all l r = Ok r' ∧ ∀ name c, mget name r' = Some c ↔ mget name r = Some c ∨
    (name ∈ l ∧ ∃ zero, builtin_zero name = Some zero ∧ c = mkCtor (cfg_type zero) (f_call (new_func zero)) true).
Proof.
  induction l as [|x l IH]; intros r Hnd Hb Hr.
  - exists r. split; [done|]. intros name c. split; [by left|]. intros [?|[H _]]; [done|]. by apply elem_of_nil in H.
  - apply NoDup_cons in Hnd as [Hx Hnd]. cbn [init_all].
    destruct (builtin_zero x) as [zero|] eqn:Ez. 2:{ exfalso. apply (Hb x); [apply elem_of_cons; by left|done]. }
    rewrite register_new by (apply Hr, elem_of_cons; by left).
    destruct (IH (mset x (mkCtor (cfg_type zero) (f_call (new_func zero)) true) r)) as (r' & H1 & H2); [done| | |].
    { intros y Hy. apply Hb, elem_of_cons. by right. }
    { intros y Hy. rewrite mget_mset_ne; [apply Hr, elem_of_cons; by right|]. intros ->. done. }
    exists r'. split; [done|]. intros name c. rewrite H2. destruct (decide (name = x)) as [->|Hne].
    + rewrite mget_mset_eq, elem_of_cons. split.
      * intros [[= <-]|[H _]]; [|done]. right. split; [by left|]. by exists zero.
      * intros [H|[_ (z & Hz & ->)]]; [rewrite Hr in H by (apply elem_of_cons; by left); done|]. left. congruence.
    + rewrite mget_mset_ne by done. rewrite elem_of_cons. naive_solver.
Qed.

(** ** Specification: what a definition describes *)
Context {CfgMap : Type} (emptyCfg : CfgMap) (unpack : string → CfgMap → bcfg + goerr) (names : list string) (h : heap).
Inductive means_conf : bcfg → bconf → Prop :=
| mc_lowercase field target b : means_conf (CfLowercase field target b) (BLowercase lo field target)
| mc_uppercase field target b : means_conf (CfUppercase field target b) (BUppercase up field target)
| mc_append d field value b : means_conf (CfAppend d field value b) (BAppend field value)
| mc_set from target p t b1 b2 : holds h p t → t ≠ TNull → means_conf (CfSet from target p b1 b2) (BSet target t)
| mc_copy from target p b1 b2 : holds h p TNull → from ≠ "" → means_conf (CfSet from target p b1 b2) (BCopy from target)
| mc_nothing target p b1 b2 : holds h p TNull → means_conf (CfSet "" target p b1 b2) (BSetNothing target)
| mc_remove l b : means_conf (CfRemove l b) (BRemove l)
| mc_community b : means_conf (CfCommunityID b) BCommunityID.
(** The options ignore_failure and ignore_missing, for the processors that have them. *)
Inductive ignores_failure : bcfg → Prop :=
| if_set from target p b : ignores_failure (CfSet from target p true b)
| if_community : ignores_failure (CfCommunityID true).
Inductive ignores_missing : bcfg → Prop :=
| im_lowercase field target : ignores_missing (CfLowercase field target true)
| im_uppercase field target : ignores_missing (CfUppercase field target true)
| im_append d field value : ignores_missing (CfAppend d field value true)
| im_set from target p b : ignores_missing (CfSet from target p b true)
| im_remove l : ignores_missing (CfRemove l true).
(** Entry [i] of the list named [base] describes a processor: it names one of the
    imported types, whose options unpack. *)
Inductive describes : string → nat → gomap (option (optcfg CfgMap)) → bproc → Prop :=
| de_entry base i name o v c ignore_failure ignore_missing handlers :
    name ∈ names → unpack (name +:+ ".Config") (o_cfg (opts emptyCfg o)) = inl v → means_conf v c →
    (ignore_failure = true ↔ ignores_failure v) → (ignore_missing = true ↔ ignores_missing v) →
    describes_all (base +:+ "[" +:+ itoa (N.of_nat i) +:+ "]." +:+ name +:+ ".on_failure") 0 (o_onf (opts emptyCfg o)) handlers →
    describes base i [(name, o)]
      (BProc (base +:+ "[" +:+ itoa (N.of_nat i) +:+ "]." +:+ name) ignore_failure ignore_missing handlers c)
with describes_all : string → nat → list (gomap (option (optcfg CfgMap))) → list bproc → Prop :=
| da_nil base i : describes_all base i [] []
| da_cons base i e l b bs : describes base i e b → describes_all base (S i) l bs → describes_all base i (e :: l) (b :: bs).
Definition defines (c : config CfgMap) (b : bpipe) : Prop :=
  cf_id c ≠ "" ∧ describes_all (cf_id c +:+ ".processors") 0 (cf_procs c) (bp_processors b) ∧
  describes_all (cf_id c +:+ ".on_failure") 0 (cf_onf c) (bp_on_failure b).
(** What is taken for granted of the configuration library: unpacking into a struct type
    gives a value of it; the value of a set processor is plain. *)
Definition unpacks : Prop := ∀ ty m v, unpack ty m = inl v → cfg_type v = ty ∧
  match v with CfSet _ _ p _ _ => ∃ t, holds h p t | _ => True end.

(** ** Proofs *)
Lemma ignf_iff v : cfg_ignf v = Some true ↔ ignores_failure v.
Proof. split; [|by intros []]. destruct v as [| | |? ? ? [] ?| |[]]; cbn; intros H; try done; constructor. Qed.
Lemma ignm_iff v : cfg_ignm v = Some true ↔ ignores_missing v.
Proof. split; [|by intros []]. destruct v as [? ? []|? ? []|? ? ? []|? ? ? ? []|? []|]; cbn; intros H; try done; constructor. Qed.
Definition holds_builtins (r : registry bcfg proc) : Prop := ∀ name c, mget name r = Some c ↔
  name ∈ names ∧ ∃ zero, builtin_zero name = Some zero ∧ c = mkCtor (cfg_type zero) (f_call (new_func zero)) true.
Context (reg : registry bcfg proc).
Lemma accepted_iff ty m p : holds_builtins reg → unpacks → accepted unpack reg ty m p ↔
  ty ∈ names ∧ builtin_zero ty ≠ None ∧ ∃ v, unpack (ty +:+ ".Config") m = inl v ∧ p = mkProc (cfg_prog v) (Some (mkCM 0 1 true (cfg_ignm v) (cfg_ignf v))).
Proof.
  intros Hr Hu. unfold accepted. split.
  - intros (c & v & Hc & Hv & Hcall & _). apply Hr in Hc as (Hin & zero & Hz & ->). cbn [c_cfgtype c_call] in *.
    rewrite (builtin_type _ _ Hz) in Hv. split; [done|]. split; [congruence|]. exists v. split; [done|].
    destruct (Hu _ _ _ Hv) as [Hty _]. cbn [new_func f_call] in Hcall. rewrite (builtin_type _ _ Hz), Hty, String.eqb_refl in Hcall.
    unfold construct in Hcall. by injection Hcall as <-.
  - intros (Hin & Hz & v & Hv & ->). destruct (builtin_zero ty) as [zero|] eqn:Ez; [|done].
    exists (mkCtor (cfg_type zero) (f_call (new_func zero)) true), v.
    split; [apply Hr; split; [done|]; by exists zero|]. cbn [c_cfgtype c_call c_err_nilable]. rewrite (builtin_type _ _ Ez).
    split; [done|]. split; [|done]. cbn [new_func f_call]. destruct (Hu _ _ _ Hv) as [Hty _]. by rewrite (builtin_type _ _ Ez), Hty, String.eqb_refl.
Qed.
Lemma means_conf_ex v : match v with CfSet _ _ p _ _ => ∃ t, holds h p t | _ => True end → ∃ c, means_conf v c ∧ runs_as h c (cfg_prog v).
Proof.
  intros H. destruct v as [| | |from target p b1 b2| |]; try (by (eexists; split; constructor)).
  destruct H as [t Ht]. assert (t = TNull ∨ t ≠ TNull) as [->|Hn] by (destruct t; by (left + right)).
  - destruct (decide (from = "")) as [->|Hf].
    + exists (BSetNothing target). split; by constructor.
    + exists (BCopy from target). split; by constructor.
  - exists (BSet target t). split; by constructor.
Qed.
Lemma means_runs v c : means_conf v c → runs_as h c (cfg_prog v).
Proof. intros H. destruct H; by constructor. Qed.
Lemma built_describes : holds_builtins reg → unpacks →
  (∀ base i e q, built emptyCfg unpack reg base i e q → ∃ b, describes base i e b ∧ built_as h b q) ∧
  (∀ base i l qs, built_list emptyCfg unpack reg base i l qs → ∃ bs, describes_all base i l bs ∧ Forall2 (built_as h) bs qs).
Proof.
  intros Hr Hu. apply built_mutind.
  - intros base i ty o p m ps Ha (Hm & Hnin & Hnout & Hs) _ (bs & Hbs & Hall).
    apply accepted_iff in Ha as (Hin & Hz & v & Hv & ->); [|done|done]. cbn [pr_config pr_prog] in *. injection Hm as <-. cbn [cm_ignf cm_ignm].
    destruct (means_conf_ex v) as (c & Hc & Hrun); [by eapply Hu|].
    exists (BProc (base +:+ "[" +:+ itoa (N.of_nat i) +:+ "]." +:+ ty) (bool_decide (cfg_ignf v = Some true)) (bool_decide (cfg_ignm v = Some true)) bs c).
    split; [|by constructor]. econstructor; try done; rewrite bool_decide_eq_true; [apply ignf_iff|apply ignm_iff].
  - intros base i. exists []. split; constructor.
  - intros base i e l p ps _ (b & Hb1 & Hb2) _ (bs & Hbs1 & Hbs2). exists (b :: bs). split; by constructor.
Qed.
Scheme describes_mind := Minimality for describes Sort Prop
with describes_all_mind := Minimality for describes_all Sort Prop.
Combined Scheme describes_mutind from describes_mind, describes_all_mind.
Lemma describes_built : holds_builtins reg → unpacks → (∀ x, x ∈ names → builtin_zero x ≠ None) →
  (∀ base i e b, describes base i e b → ∃ q, built emptyCfg unpack reg base i e q ∧ built_as h b q) ∧
  (∀ base i l bs, describes_all base i l bs → ∃ qs, built_list emptyCfg unpack reg base i l qs ∧ Forall2 (built_as h) bs qs).
Proof.
  intros Hr Hu Hn. apply describes_mutind.
  - intros base i name o v c ignf ignm onf Hin Hv Hc Hf Hm _ (qs & Hqs & Hall). rewrite <- ignf_iff in Hf. rewrite <- ignm_iff in Hm.
    exists (PProc (base +:+ "[" +:+ itoa (N.of_nat i) +:+ "]." +:+ name) (o_if (opts emptyCfg o)) ignf ignm qs (cfg_prog v)). split.
    + assert (ignf = bool_decide (cfg_ignf v = Some true)) as -> by (destruct ignf; symmetry; [by apply bool_decide_eq_true, Hf|apply bool_decide_eq_false; by intros ?%Hf]).
      assert (ignm = bool_decide (cfg_ignm v = Some true)) as -> by (destruct ignm; symmetry; [by apply bool_decide_eq_true, Hm|apply bool_decide_eq_false; by intros ?%Hm]).
      apply (built_intro emptyCfg unpack reg base i name o (mkProc (cfg_prog v) (Some (mkCM 0 1 true (cfg_ignm v) (cfg_ignf v))))
        (mkCM 0 1 true (cfg_ignm v) (cfg_ignf v)) qs).
      * apply accepted_iff; [done|done|]. split; [done|]. split; [by apply Hn|]. by exists v.
      * by split_and!.
      * done.
    + constructor; [by apply means_runs|done].
  - intros. exists []. split; constructor.
  - intros base i e l b bs _ (q & Hq1 & Hq2) _ (qs & Hqs1 & Hqs2). exists (q :: qs). split; by constructor.
Qed.
End builtins.
