(** * Property theorems for building pipelines and the registry: C23-C26, C33, C49.

    The configuration library is a parameter [unpack]; [CfgMap] are the options as
    written, [CfgVal] the unpacked configuration structs.  [accepted ty cfg p]: type
    [ty] is registered, its options unpack and its constructor returns [p] and no
    error; [has_config p m]: [p] has a Config() method returning one struct. *)
From Verif Require Import PipelineNewFacts PipelineRun.

(** A concrete registry: type "t" accepts option values below 10, type "n" has no
    Config method. *)
Definition ex_unpack (ty : string) (m : nat) : nat + goerr :=
  if Nat.ltb m 10 then inl m else inr (EMsg "bad options").
Definition ex_reg : registry nat proc :=
  [("n", mkCtor "N" (λ c, Ok (mkProc (Ret None) None, None)) true);
   ("t", mkCtor "T" (λ c, if Nat.eqb c 5 then Ok (mkProc (Ret None) None, Some (EMsg "five"))
                          else Ok (mkProc (Ret None) (Some (mkCM 0 1 true (Some true) None)), None)) true)].
Definition ex_entry (onf : list (gomap (option (optcfg nat)))) : gomap (option (optcfg nat)) :=
  [("t", Some (OptCfg "my id" "cond" onf 3))].
Definition ex_config : config nat :=
  mkConfig "p" "" [ex_entry [ex_entry []; [("t", None)]]; [("t", None)]] [ex_entry []].

(** ** C23 *)
Theorem C23_ids_unique : ∀ (CfgMap CfgVal : Type) (emptyCfg : CfgMap)
    (unpack : string → CfgMap → CfgVal + goerr) (reg : registry CfgVal proc) c pl,
  New emptyCfg unpack reg c = Ok (inl pl) → NoDup (map p_id (pl_all pl)).
Proof. intros *. apply New_ids. Qed.
Print Assumptions C23_ids_unique.

Example C23_ex : ∃ pl, New 0 ex_unpack ex_reg ex_config = Ok (inl pl) ∧
  map p_id (pl_all pl) =
  ["p.processors[0].t"; "p.processors[0].t.on_failure[0].t"; "p.processors[0].t.on_failure[1].t";
   "p.processors[1].t"; "p.on_failure[0].t"].
Proof. eexists. split; vm_compute; reflexivity. Qed.

(** ** C24 *)
(** Full statement wanted: for every processor of [pl_all pl].  Proved: exactly the
    four counters of each processor of the main list and of nested handlers; the
    global on_failure processors are missing. *)
Theorem C24_metrics_partial : ∀ pl,
  length (Metrics pl) = 4 * length (pps_all (pl_processors pl)) ∧
  (∀ id m, (id, m) ∈ Metrics pl ↔ ∃ p, p ∈ pps_all (pl_processors pl) ∧ p_id p = id).
Proof.
  intros pl. split.
  { unfold Metrics. induction (pps_all (pl_processors pl)) as [|p l IH]; simpl in *; [done|]. lia. }
  intros id m. unfold Metrics.
  induction (pps_all (pl_processors pl)) as [|q l IH]; cbn [map List.concat].
  - split; [intros Hin; by apply elem_of_nil in Hin|]. intros (p & Hin & _). by apply elem_of_nil in Hin.
  - rewrite elem_of_app, IH, !elem_of_cons, elem_of_nil. setoid_rewrite elem_of_cons.
    destruct m; naive_solver.
Qed.
Print Assumptions C24_metrics_partial.

Theorem C24_global_on_failure_refuted : ∃ pl p,
  New 0 ex_unpack ex_reg ex_config = Ok (inl pl) ∧ p ∈ pl_all pl ∧ ∀ m, (p_id p, m) ∉ Metrics pl.
Proof.
  eexists _, _. split; [vm_compute; reflexivity|]. split.
  - unfold pl_all. apply elem_of_app. right. simpl. left.
  - intros m Hin. apply C24_metrics_partial in Hin as (p & Hp & Hid). unfold pps_all in Hp. simpl in Hp.
    rewrite !elem_of_cons, elem_of_nil in Hp.
    destruct Hp as [->|[->|[->|[->|[]]]]]; simpl in Hid; done.
Qed.
Print Assumptions C24_global_on_failure_refuted.

(** ** C25 *)
Theorem C25_new_accepts_exactly_valid_configs : ∀ (CfgMap CfgVal : Type) (emptyCfg : CfgMap)
    (unpack : string → CfgMap → CfgVal + goerr) (reg : registry CfgVal proc) c,
  (∃ pl, New emptyCfg unpack reg c = Ok (inl pl)) ↔
  cf_id c ≠ "" ∧ Forall (valid_entry emptyCfg unpack reg) (cf_procs c) ∧
  Forall (valid_entry emptyCfg unpack reg) (cf_onf c).
Proof.
  intros *. split.
  - intros [pl H]. apply New_ok in H as (Hid & _ & H1 & H2).
    apply built_valid in H1, H2. done.
  - intros (Hid & H1 & H2).
    destruct (valid_built_list _ _ _ _ H1 (cf_id c +:+ ".processors") 0) as [ps Hps].
    destruct (valid_built_list _ _ _ _ H2 (cf_id c +:+ ".on_failure") 0) as [qs Hqs].
    exists (mkPipeline (cf_id c) ps qs). by apply New_ok.
Qed.
Print Assumptions C25_new_accepts_exactly_valid_configs.

(** An entry is valid only if it names exactly one type, which is registered. *)
Theorem C25_valid_entries : ∀ (CfgMap CfgVal : Type) (emptyCfg : CfgMap)
    (unpack : string → CfgMap → CfgVal + goerr) (reg : registry CfgVal proc) e,
  valid_entry emptyCfg unpack reg e ↔
  ∃ ty v p m, e = [(ty, v)] ∧ accepted unpack reg ty (o_cfg (opts emptyCfg v)) p ∧ has_config p m ∧
    Forall (valid_entry emptyCfg unpack reg) (o_onf (opts emptyCfg v)).
Proof.
  intros *. split.
  - intros [ty v p m Ha Hm Hl]. by exists ty, v, p, m.
  - intros (ty & v & p & m & -> & Ha & Hm & Hl). by econstructor.
Qed.
Print Assumptions C25_valid_entries.

(** New never panics, whatever the definition, if the registered constructors return and
    the processors' Config methods are as documented. *)
Theorem C25_never_panics : ∀ (CfgMap CfgVal : Type) (emptyCfg : CfgMap)
    (unpack : string → CfgMap → CfgVal + goerr) (reg : registry CfgVal proc) c,
  (∀ ty k v, mget ty reg = Some k → (∃ m, unpack (c_cfgtype k) m = inl v) →
     c_err_nilable k = true ∧ ∃ p err, c_call k v = Ok (p, err) ∧
     ∀ m, pr_config p = Some m → cm_nout m = 1 → cm_nin m = 0 ∧ cm_struct m = true) →
  New emptyCfg unpack reg c ≠ Panic.
Proof. intros *. apply New_returns. Qed.
Print Assumptions C25_never_panics.
Example C25_ex_sound : ∀ ty k v, mget ty ex_reg = Some k → (∃ m, ex_unpack (c_cfgtype k) m = inl v) →
  c_err_nilable k = true ∧ ∃ p err, c_call k v = Ok (p, err) ∧
  ∀ m, pr_config p = Some m → cm_nout m = 1 → cm_nin m = 0 ∧ cm_struct m = true.
Proof.
  intros ty k v H _. apply mget_Some_In in H. simpl in H. destruct H as [[= _ <-]|[[= _ <-]|[]]]; cbn [c_err_nilable c_call]; (split; [done|]).
  - eexists _, _. split; [reflexivity|]. done.
  - destruct (Nat.eqb v 5); eexists _, _; (split; [reflexivity|]); [done|]. cbn. by intros m [= <-] _.
Qed.
(** It does if a Config method takes an argument. *)
Theorem C25_config_argument_panics : ∃ reg : registry nat proc, ∀ o,
  New 0 ex_unpack reg (mkConfig "p" "" [[("t", Some (OptCfg "" "" [] o))]] []) = Panic ∨ ex_unpack "T" o = inr (EMsg "bad options").
Proof.
  exists [("t", mkCtor "T" (λ c, Ok (mkProc (Ret None) (Some (mkCM 1 1 true None None)), None)) true)].
  intros o. unfold ex_unpack at 2. destruct (Nat.ltb o 10) eqn:E; [left|by right]. unfold New. cbn. unfold new_proc_with, NewProcessor. cbn.
  unfold ex_unpack. by rewrite E.
Qed.
Print Assumptions C25_config_argument_panics.

Example C25_ex :
  (∃ e, New 0 ex_unpack ex_reg (mkConfig "" "" [] []) = Ok (inr e)) ∧
  (∃ e, New 0 ex_unpack ex_reg (mkConfig "p" "" [[]] []) = Ok (inr e)) ∧
  (∃ e, New 0 ex_unpack ex_reg (mkConfig "p" "" [ex_entry [[("t", None); ("u", None)]]] []) = Ok (inr e)) ∧
  (∃ e, New 0 ex_unpack ex_reg (mkConfig "p" "" [] [[("unknown", None)]]) = Ok (inr e)) ∧
  (∃ e, New 0 ex_unpack ex_reg (mkConfig "p" "" [[("n", None)]] []) = Ok (inr e)) ∧
  (∃ e, New 0 ex_unpack ex_reg (mkConfig "p" "" [[("t", Some (OptCfg "" "" [] 5))]] []) = Ok (inr e)) ∧
  (∃ e, New 0 ex_unpack ex_reg (mkConfig "p" "" [[("t", Some (OptCfg "" "" [] 50))]] []) = Ok (inr e)).
Proof. split_and!; eexists; vm_compute; reflexivity. Qed.

(** ** C26 *)
(** [built_list base 0 entries procs]: entry by entry, processor [i] is built from
    entry [i], carries the id base[i].type, its condition, the ignore flags its
    Config() reports and, recursively, its on_failure list. *)
Theorem C26_structure_preserved : ∀ (CfgMap CfgVal : Type) (emptyCfg : CfgMap)
    (unpack : string → CfgMap → CfgVal + goerr) (reg : registry CfgVal proc) c pl,
  New emptyCfg unpack reg c = Ok (inl pl) ↔
  cf_id c ≠ "" ∧ pl_id pl = cf_id c ∧
  built_list emptyCfg unpack reg (cf_id c +:+ ".processors") 0 (cf_procs c) (pl_processors pl) ∧
  built_list emptyCfg unpack reg (cf_id c +:+ ".on_failure") 0 (cf_onf c) (pl_onf pl).
Proof. intros *. apply New_ok. Qed.
Print Assumptions C26_structure_preserved.

(** ** C33 *)
(** After any sequence of Register calls on an empty registry a name resolves
    exactly to the first valid constructor registered under it. *)
Theorem C33_first_registration_wins : ∀ (CfgVal Proc : Type)
    (l : list (string * option (goval CfgVal Proc))) r es name c,
  register_all NewRegistry l = Ok (r, es) → (mget name r = Some c ↔ first_valid name l c).
Proof. intros CfgVal Proc l r es name c H. by apply (register_all_lookup l _ _ _ name) in H. Qed.
Print Assumptions C33_first_registration_wins.

(** Each call: it fails, changing nothing, exactly when the name is taken or the
    constructor is not valid. *)
Theorem C33_register_outcome : ∀ (CfgVal Proc : Type) (r : registry CfgVal Proc) name i r' err,
  Register r name i = Ok (r', err) →
  (err ≠ None → r' = r) ∧
  (err = None ↔ mget name r = None ∧ ∃ v cfg p e, i = Some v ∧ valid_constructor v cfg p e) ∧
  (∀ n c, mget n r = Some c → mget n r' = Some c).
Proof.
  intros CfgVal Proc r name i r' err H. unfold Register in H.
  destruct (mget name r) as [c|] eqn:Hn.
  - injection H as <- <-. split_and!; try done. naive_solver.
  - destruct (validateConfig i) as [[pc|e]|] eqn:Hv; [| |done]; injection H as <- <-.
    + apply validateConfig_ok in Hv as (v & cfg & p & e & -> & Hval & ->). split_and!; try done.
      * split; [|done]. intros _. split; [done|]. by exists v, cfg, p, e.
      * intros n c' Hc. rewrite mget_mset_ne; [done|]. intros ->. congruence.
    + apply validateConfig_err in Hv as (v & -> & Hno). split_and!; try done.
      split; [done|]. intros (_ & v' & cfg & p & e' & [= <-] & Hval). by apply Hno in Hval.
Qed.
Print Assumptions C33_register_outcome.

Theorem C33_unknown_name_fails : ∀ (CfgMap CfgVal Proc : Type) (unpack : string → CfgMap → CfgVal + goerr)
    (r : registry CfgVal Proc) name cfg,
  mget name r = None → ∃ e, NewProcessor unpack r name cfg = Ok (inr e).
Proof. intros * H. unfold NewProcessor. rewrite H. by eexists. Qed.
Print Assumptions C33_unknown_name_fails.

Example C33_ex :
  let cfg := mkType "C" KStruct false false in
  let pt := mkType "*P" KPtr true false in let et := mkType "error" KInterface false true in
  let f (n : nat) := Some (mkVal KFunc [cfg] [pt; et] false (λ _ : nat, Ok (n, None)) 0) in
  let bad := Some (mkVal KFunc [pt] [pt; et] false (λ _ : nat, Ok (0, None)) 0) in
  ∃ r es, register_all NewRegistry [("a", bad); ("a", f 1); ("a", f 2); ("b", f 3)] = Ok (r, es) ∧
    map is_Some_b es = [true; false; true; false] ∧
    NewProcessor (λ _ m, inl m) r "a" 7 = Ok (inl 1).
Proof. eexists _, _. split; [vm_compute; reflexivity|]. split; reflexivity. Qed.

(** ** C49 *)
(** Pipelines whose ids contain no dot never share a component id. *)
Theorem C49_ids_of_different_pipelines_partial : ∀ (CfgMap CfgVal : Type) (emptyCfg : CfgMap)
    (unpack : string → CfgMap → CfgVal + goerr) (reg : registry CfgVal proc) c1 c2 pl1 pl2 p1 p2,
  New emptyCfg unpack reg c1 = Ok (inl pl1) → New emptyCfg unpack reg c2 = Ok (inl pl2) →
  has_dot (cf_id c1) = false → has_dot (cf_id c2) = false → cf_id c1 ≠ cf_id c2 →
  p1 ∈ pl_all pl1 → p2 ∈ pl_all pl2 → p_id p1 ≠ p_id p2.
Proof.
  intros * H1 H2 Hd1 Hd2 Hne Hp1 Hp2 Heq.
  apply (New_ids_prefix _ _ _ _ _ _ H1) in Hp1 as [s1 Hs1].
  apply (New_ids_prefix _ _ _ _ _ _ H2) in Hp2 as [s2 Hs2].
  rewrite Hs1, Hs2 in Heq. by apply dotless_split in Heq.
Qed.
Print Assumptions C49_ids_of_different_pipelines_partial.

Theorem C49_ids_collide_refuted : ∃ c1 c2 pl1 pl2 p1 p2,
  New 0 ex_unpack ex_reg c1 = Ok (inl pl1) ∧ New 0 ex_unpack ex_reg c2 = Ok (inl pl2) ∧
  cf_id c1 ≠ cf_id c2 ∧ p1 ∈ pl_all pl1 ∧ p2 ∈ pl_all pl2 ∧ p_id p1 = p_id p2.
Proof.
  exists (mkConfig "p" "" [ex_entry [[("t", None)]]] []),
    (mkConfig "p.processors[0].t" "" [] [[("t", None)]]).
  eexists _, _, _, _. split; [vm_compute; reflexivity|]. split; [vm_compute; reflexivity|].
  split; [done|]. split; [right; left|]. split; [left|]. reflexivity.
Qed.
Print Assumptions C49_ids_collide_refuted.

(** Together with C23: everything proved of pipelines with distinct ids applies to
    every pipeline New builds. *)
Theorem C22_built_pipelines_run_each_processor_at_most_once : ∀ (CfgMap CfgVal : Type) (emptyCfg : CfgMap)
    (unpack : string → CfgMap → CfgVal + goerr) (reg : registry CfgVal proc) c pl w evt w' r err,
  New emptyCfg unpack reg c = Ok (inl pl) → Process pl w evt = Ok (w', r, err) →
  ∃ lg, new_log w w' lg ∧ NoDup (runs lg) ∧ runs lg `sublist_of` map p_id (pl_all pl).
Proof.
  intros * Hnew H. apply New_ids in Hnew. destruct (Process_runs _ _ _ _ _ _ H) as (lg & Hl & Hs).
  exists lg. split_and!; try done. by eapply sublist_nodup.
Qed.
Print Assumptions C22_built_pipelines_run_each_processor_at_most_once.
