(** * Metrics in use: pkg/metrics, and the Prometheus registry behind it. *)
From Verif Require Export PipelineNewFacts Utf8.

(** ** The model *)
(** A counter of the [co_pipe]-th pipeline built.  processor.go:115-119, 141-164: its
    name says which of the four it is, its labels are the type and id of the processor
    (component_kind is always "processor"). *)
Record collector : Type := mkColl { co_pipe : nat; co_metric : metric; co_type : string; co_id : string }.
Definition co_key (c : collector) : metric * string * string := (co_metric c, co_type c, co_id c).
(** The types of the processors in the order of Metrics(): pipeline.go:123-135. *)
Fixpoint opt_types {CfgMap} (o : optcfg CfgMap) : list string :=
  match o with
  | OptCfg _ _ onf _ =>
      concat (map (λ e, concat (map (λ kv : string * option (optcfg CfgMap), let '(k, o) := kv in
                                       k :: match o with Some o => opt_types o | None => [] end) e)) onf)
  end.
Definition entry_types {CfgMap} (e : gomap (option (optcfg CfgMap))) : list string :=
  concat (map (λ kv : string * option (optcfg CfgMap), let '(k, o) := kv in
                 k :: match o with Some o => opt_types o | None => [] end) e).
Definition procs_types {CfgMap} (l : list (gomap (option (optcfg CfgMap)))) : list string := concat (map entry_types l).
(** What Metrics() returns, pipeline.go:110-121, with the labels. *)
Definition collectors (n : nat) (pl : pipeline) (types : list string) : list collector :=
  concat (map (λ x : pproc * string, let '(p, ty) := x in
    [mkColl n MDiscarded ty (p_id p); mkColl n MErrors ty (p_id p); mkColl n MIn ty (p_id p); mkColl n MOut ty (p_id p)])
    (combine (pps_all (pl_processors pl)) types)).

(** prometheus.Registry, registry.go of client_golang v1.14.0: a collector is known by its
    name and label values, hashed; hashes are taken to be free of collisions.  A label
    value that is not UTF-8 makes the descriptor invalid (NewDesc), which Register
    refuses.  The other collectors of metrics.go:30-37 have other names. *)
Definition same_key (c d : collector) : bool := bool_decide (co_key c = co_key d).
Definition describable (c : collector) : bool :=
  bool_decide (fix_utf8 (co_type c) = co_type c) && bool_decide (fix_utf8 (co_id c) = co_id c).
Definition prom_register (r : list collector) (c : collector) : list collector * bool :=
  if negb (describable c) then (r, false)
  else if existsb (same_key c) r then (r, false)
  else (r ++ [c], true).
Definition prom_unregister (r : list collector) (c : collector) : list collector :=
  if negb (describable c) then r else List.filter (λ d, negb (same_key c d)) r.
(** metrics.go:39-43 Register: the errors are dropped; 45-49 Unregister. *)
Definition metrics_register (r : list collector) (cs : list collector) : list collector :=
  fold_left (λ r c, fst (prom_register r c)) cs r.
Definition metrics_unregister (r : list collector) (cs : list collector) : list collector :=
  fold_left prom_unregister cs r.

(** A program using several pipelines. *)
Inductive mop (CfgMap : Type) : Type :=
| MNew (c : config CfgMap)             (* pipeline.New; the program goes on if it fails *)
| MRegister (n : nat)                  (* metrics.Register(p.Metrics()...) *)
| MUnregister (n : nat)
| MProcess (n : nat) (evt : option nat). (* p.Process(evt) *)
Arguments MNew {CfgMap}. Arguments MRegister {CfgMap}. Arguments MUnregister {CfgMap}. Arguments MProcess {CfgMap}.
(** Each pipeline with its counters: the increments so far. *)
Record mstate (CfgMap : Type) : Type := mkMState {
  ms_world : world;
  ms_pipes : list (config CfgMap * pipeline * list (string * metric));
  ms_reg : list collector
}.
Arguments mkMState {CfgMap}. Arguments ms_world {CfgMap}. Arguments ms_pipes {CfgMap}. Arguments ms_reg {CfgMap}.
Section history.
Context {CfgMap CfgVal : Type} (emptyCfg : CfgMap) (unpack : string → CfgMap → CfgVal + goerr) (reg : registry CfgVal proc).
Definition own_log (w : world) (l : list (string * metric)) : world := mkWorld (w_heap w) (w_events w) (w_env w) l.
(** Using a pipeline not built panics (a nil pointer). *)
Definition mstep (s : mstate CfgMap) (o : mop CfgMap) : Outcome (mstate CfgMap) :=
  match o with
  | MNew c =>
      match New emptyCfg unpack reg c with
      | Panic => Panic
      | Ok (Datatypes.inr _) => Ok s
      | Ok (inl pl) => Ok (mkMState (ms_world s) (ms_pipes s ++ [(c, pl, [])]) (ms_reg s))
      end
  | MRegister n =>
      match ms_pipes s !! n with
      | None => Panic
      | Some (c, pl, _) => Ok (mkMState (ms_world s) (ms_pipes s) (metrics_register (ms_reg s) (collectors n pl (procs_types (cf_procs c)))))
      end
  | MUnregister n =>
      match ms_pipes s !! n with
      | None => Panic
      | Some (c, pl, _) => Ok (mkMState (ms_world s) (ms_pipes s) (metrics_unregister (ms_reg s) (collectors n pl (procs_types (cf_procs c)))))
      end
  | MProcess n evt =>
      match ms_pipes s !! n with
      | None => Panic
      | Some (c, pl, l) =>
          match Process pl (own_log (ms_world s) l) evt with
          | Panic => Panic
          | Ok (w, _, _) => Ok (mkMState (own_log w []) (<[n := (c, pl, w_log w)]> (ms_pipes s)) (ms_reg s))
          end
      end
  end.
Fixpoint mrun (s : mstate CfgMap) (l : list (mop CfgMap)) : Outcome (mstate CfgMap) :=
  match l with
  | [] => Ok s
  | o :: l' => match mstep s o with Panic => Panic | Ok s' => mrun s' l' end
  end.
(** What GET /metrics shows (metrics.go:51-64): every registered counter with its value. *)
Definition scrape (s : mstate CfgMap) : list (metric * string * string * nat) :=
  map (λ c, (co_key c, match ms_pipes s !! co_pipe c with Some (_, _, l) => count (co_id c) (co_metric c) l | None => 0 end)) (ms_reg s).
Definition mstart (w : world) : mstate CfgMap := mkMState w [] [].

(** ** Specification *)
(** Type and id of a processor in the entry [e] at position [i] of the list named
    [base], handlers included. *)
Inductive component : string → nat → gomap (option (optcfg CfgMap)) → string → string → Prop :=
| comp_here base i ty o : component base i [(ty, o)] ty (base +:+ "[" +:+ itoa (N.of_nat i) +:+ "]." +:+ ty)
| comp_handler base i ty o j e t id : o_onf (opts emptyCfg o) !! j = Some e →
    component (base +:+ "[" +:+ itoa (N.of_nat i) +:+ "]." +:+ ty +:+ ".on_failure") j e t id →
    component base i [(ty, o)] t id.
(** The processors whose counters Metrics() returns (C24): not the global handlers. *)
Definition measured (c : config CfgMap) (ty id : string) : Prop :=
  ∃ i e, cf_procs c !! i = Some e ∧ component (cf_id c +:+ ".processors") i e ty id.
(** Of a program's actions: the definitions of the pipelines built, in order, *)
Fixpoint built_pipes (l : list (mop CfgMap)) : list (config CfgMap) :=
  match l with
  | [] => []
  | MNew c :: l' => match New emptyCfg unpack reg c with Ok (inl _) => c :: built_pipes l' | _ => built_pipes l' end
  | _ :: l' => built_pipes l'
  end.
(** and which pipeline's counters are shown for the processors of type [ty] and id [id]:
    the first one registered of those that have one, until one that has one is
    unregistered. *)
Inductive shows (ds : list (config CfgMap)) (ty id : string) : list (mop CfgMap) → option nat → Prop :=
| sh_start : shows ds ty id [] None
| sh_first l n c : shows ds ty id l None → ds !! n = Some c → measured c ty id → shows ds ty id (l ++ [MRegister n]) (Some n)
| sh_later l n c k : shows ds ty id l (Some k) → ds !! n = Some c → measured c ty id → shows ds ty id (l ++ [MRegister n]) (Some k)
| sh_gone l n c r : shows ds ty id l r → ds !! n = Some c → measured c ty id → shows ds ty id (l ++ [MUnregister n]) None
| sh_other l o r : shows ds ty id l r →
    (∀ n c, o = MRegister n ∨ o = MUnregister n → ds !! n = Some c → ¬ measured c ty id) → shows ds ty id (l ++ [o]) r.

(** ** Proofs *)
(** *** What Metrics() returns *)
Lemma opt_types_eq (o : option (optcfg CfgMap)) : match o with Some o => opt_types o | None => [] end = procs_types (o_onf (opts emptyCfg o)).
Proof. destruct o as [[id cond onf cfg]|]; done. Qed.
Lemma entry_types_eq ty (o : option (optcfg CfgMap)) : entry_types [(ty, o)] = ty :: procs_types (o_onf (opts emptyCfg o)).
Proof. unfold entry_types. cbn [map concat]. by rewrite app_nil_r, opt_types_eq. Qed.
Definition paired (ids types : list string) (S : string → string → Prop) : Prop :=
  length ids = length types ∧ ∀ ty id, (id, ty) ∈ combine ids types ↔ S ty id.
Lemma pp_all_eq id cond ignf ignm onf c : pp_all (PProc id cond ignf ignm onf c) = PProc id cond ignf ignm onf c :: pps_all onf.
Proof. cbn [pp_all]. f_equal. unfold pps_all. induction onf as [|p l IH]; [done|]. cbn [map concat]. by rewrite IH. Qed.
Lemma combine_app {A B} (l1 l2 : list A) (k1 k2 : list B) : length l1 = length k1 → combine (l1 ++ l2) (k1 ++ k2) = combine l1 k1 ++ combine l2 k2.
Proof. revert k1. induction l1 as [|a l1 IH]; intros [|b k1] H; simplify_eq/=; [done|]. by rewrite IH. Qed.
Lemma built_paired :
  (∀ base i e p, built emptyCfg unpack reg base i e p → paired (map p_id (pp_all p)) (entry_types e) (component base i e)) ∧
  (∀ base i l ps, built_list emptyCfg unpack reg base i l ps → paired (map p_id (pps_all ps)) (procs_types l)
     (λ ty id, ∃ j e, l !! j = Some e ∧ component base (i + j) e ty id)).
Proof.
  apply (built_mutind emptyCfg unpack reg (λ base i e p _, paired (map p_id (pp_all p)) (entry_types e) (component base i e))
    (λ base i l ps _, paired (map p_id (pps_all ps)) (procs_types l) (λ ty id, ∃ j e, l !! j = Some e ∧ component base (i + j) e ty id))).
  - intros base i ty o p m ps Ha Hc Hb [IH1 IH2]. rewrite entry_types_eq, pp_all_eq. cbn [map p_id].
    split; [by simpl; rewrite IH1|]. intros t id. cbn [combine]. rewrite elem_of_cons, IH2. split.
    + intros [[= -> ->]|(j & e & Hj & H)]; [constructor|]. by eapply comp_handler.
    + intros H. inversion H; subst; [by left|right]. eexists _, _. split; [done|]. done.
  - intros base i. split; [done|]. intros ty id. simpl. rewrite elem_of_nil. split; [done|]. by intros (j & e & H & _).
  - intros base i c l p ps _ [H1 H2] _ [H3 H4]. unfold procs_types, pps_all in *. cbn [map concat]. rewrite map_app. split.
    + by rewrite !app_length, H1, H3.
    + intros ty id. rewrite combine_app by done. rewrite elem_of_app, H2, H4. split.
      * intros [H|(j & e & Hj & H)]; [exists 0, c; by rewrite Nat.add_0_r|]. exists (S j), e. by rewrite Nat.add_succ_r.
      * intros ([|j] & e & Hj & H); [left; cbn in Hj; simplify_eq; by rewrite Nat.add_0_r in H|].
        right. exists j, e. by rewrite Nat.add_succ_r in H.
Qed.
Lemma elem_of_collectors n pl types k m ty id :
  mkColl k m ty id ∈ collectors n pl types ↔ k = n ∧ (id, ty) ∈ combine (map p_id (pps_all (pl_processors pl))) types.
Proof.
  unfold collectors. generalize (pps_all (pl_processors pl)) as l. intros l. revert types.
  induction l as [|p l IH]; intros types; [cbn; rewrite !elem_of_nil; naive_solver|].
  destruct types as [|t types]; [cbn; rewrite !elem_of_nil; naive_solver|].
  cbn [map combine concat]. rewrite elem_of_app, IH, !elem_of_cons, elem_of_nil. destruct m; naive_solver.
Qed.
Lemma New_collectors c pl n k m ty id : New emptyCfg unpack reg c = Ok (inl pl) →
  mkColl k m ty id ∈ collectors n pl (procs_types (cf_procs c)) ↔ k = n ∧ measured c ty id.
Proof.
  intros H. apply New_ok in H as (_ & _ & H & _). apply built_paired in H as [_ H]. rewrite elem_of_collectors, H. done.
Qed.
Lemma collectors_keys n pl types : NoDup (map p_id (pps_all (pl_processors pl))) → NoDup (map co_key (collectors n pl types)).
Proof.
  unfold collectors. generalize (pps_all (pl_processors pl)) as l. intros l. revert types.
  induction l as [|p l IH]; intros types Hnd; [constructor|].
  destruct types as [|t types]; [constructor|]. cbn [map] in Hnd. apply NoDup_cons in Hnd as [Hp Hnd].
  cbn [combine map concat]. rewrite map_app. apply NoDup_app. split_and!; [|
    |by apply IH].
  - cbn. rewrite !NoDup_cons, !elem_of_cons, !elem_of_nil. split_and!; try (by constructor); naive_solver.
  - intros x Hx Hin. apply elem_of_list_fmap in Hin as ([k m ty id] & -> & Hin).
    assert (id = p_id p) as -> by (cbn in Hx; rewrite !elem_of_cons, elem_of_nil in Hx; naive_solver).
    apply Hp. clear -Hin. revert types Hin. induction l as [|q l IH]; intros types Hin; [cbn in Hin; by apply elem_of_nil in Hin|].
    destruct types as [|t types]; [cbn in Hin; by apply elem_of_nil in Hin|].
    cbn [combine map concat] in Hin. rewrite elem_of_app in Hin. cbn [map]. destruct Hin as [Hin|Hin]; [|right; by eapply IH].
    rewrite !elem_of_cons, elem_of_nil in Hin. apply elem_of_cons. left. naive_solver.
Qed.
Lemma New_collectors_keys c pl n types : New emptyCfg unpack reg c = Ok (inl pl) → NoDup (map co_key (collectors n pl types)).
Proof.
  intros H. apply collectors_keys. apply New_ids in H. unfold pl_all in H. rewrite map_app in H. by apply NoDup_app in H as [? _].
Qed.

(** *** The Prometheus registry *)
Lemma describable_iff c : describable c = true ↔ valid_utf8 (co_type c) ∧ valid_utf8 (co_id c).
Proof. unfold describable. rewrite andb_true_iff, !bool_decide_eq_true, !fix_utf8_iff. done. Qed.
Lemma known_iff c r : existsb (same_key c) r = true ↔ co_key c ∈ map co_key r.
Proof.
  rewrite existsb_exists. setoid_rewrite <- elem_of_list_In. unfold same_key. setoid_rewrite bool_decide_eq_true. rewrite elem_of_list_fmap.
  split; intros (d & H1 & H2); by exists d.
Qed.
Lemma register_spec cs : ∀ r, NoDup (map co_key cs) → NoDup (map co_key r) →
  NoDup (map co_key (metrics_register r cs)) ∧
  ∀ d, d ∈ metrics_register r cs ↔ d ∈ r ∨ (d ∈ cs ∧ describable d = true ∧ co_key d ∉ map co_key r).
Proof.
  induction cs as [|c cs IH]; intros r Hc Hr.
  { cbn. split; [done|]. intros d. rewrite elem_of_nil. naive_solver. }
  cbn [map] in Hc. apply NoDup_cons in Hc as [Hc1 Hc2].
  unfold metrics_register. cbn [fold_left]. fold (metrics_register (fst (prom_register r c)) cs).
  unfold prom_register. destruct (describable c) eqn:Ed; cbn [negb].
  2:{ cbn [fst]. destruct (IH r Hc2 Hr) as [H1 H2]. split; [done|]. intros d. rewrite H2, elem_of_cons. naive_solver congruence. }
  destruct (existsb (same_key c) r) eqn:Ek.
  { cbn [fst]. apply known_iff in Ek. destruct (IH r Hc2 Hr) as [H1 H2]. split; [done|]. intros d. rewrite H2, elem_of_cons. naive_solver. }
  cbn [fst]. assert (co_key c ∉ map co_key r) as Hn by (intros H; apply known_iff in H; congruence).
  destruct (IH (r ++ [c]) Hc2) as [H1 H2].
  { rewrite map_app. apply NoDup_app. split_and!; [done| |by apply NoDup_singleton]. intros x Hx Hx'. cbn in Hx'. apply elem_of_list_singleton in Hx' as ->. done. }
  split; [done|]. intros d. rewrite H2, elem_of_app, map_app, not_elem_of_app, elem_of_list_singleton, elem_of_cons. cbn [map]. rewrite elem_of_list_singleton.
  split.
  - intros [[?| ->]|(?&?&?&?)]; [by left|by right; split; [left|]|]. right. split; [by right|done].
  - intros [?|([-> |?]&?&?)]; [by left; left|by left; right|]. right. split_and!; try done. intros Heq. apply Hc1. rewrite <- Heq.
    by apply elem_of_list_fmap_1.
Qed.
Lemma unregister_spec cs : ∀ r, NoDup (map co_key r) →
  NoDup (map co_key (metrics_unregister r cs)) ∧
  ∀ d, d ∈ metrics_unregister r cs ↔ d ∈ r ∧ ∀ c, c ∈ cs → describable c = true → co_key c ≠ co_key d.
Proof.
  induction cs as [|c cs IH]; intros r Hr.
  { cbn. split; [done|]. intros d. split; [|by intros [??]]. intros H. split; [done|]. intros c Hc. by apply elem_of_nil in Hc. }
  unfold metrics_unregister. cbn [fold_left]. fold (metrics_unregister (prom_unregister r c) cs).
  assert (NoDup (map co_key (prom_unregister r c)) ∧ ∀ d, d ∈ prom_unregister r c ↔ d ∈ r ∧ (describable c = true → co_key c ≠ co_key d)) as [Hp1 Hp2].
  { unfold prom_unregister. destruct (describable c); cbn [negb]; [|split; [done|]; intros d; split; [by intros ?|by intros [??]]]. split.
    - clear IH. induction r as [|x r IHr]; [constructor|]. cbn [map] in Hr. apply NoDup_cons in Hr as [Hx Hr]. cbn [List.filter].
      destruct (negb _); [|by apply IHr]. cbn [map]. apply NoDup_cons. split; [|by apply IHr]. intros H. apply Hx.
      apply elem_of_list_fmap in H as (y & -> & Hy). apply elem_of_list_fmap_1. rewrite elem_of_list_In in *. by apply filter_In in Hy as [??].
    - intros d. rewrite elem_of_list_In, filter_In, <- elem_of_list_In. unfold same_key. rewrite negb_true_iff, bool_decide_eq_false.
      clear. split; intros [H1 H2]; (split; [done|]); [done|by apply H2]. }
  destruct (IH _ Hp1) as [H1 H2]. clear IH Hp1 Hr. split; [done|]. intros d. rewrite H2, Hp2. split.
  - intros [[Ha Hb] Hc]. split; [done|]. intros c' [->|H']%elem_of_cons; [done|by apply Hc].
  - intros [Ha Hb]. split; [split; [done|]; apply Hb; left|]. intros c' H'. apply Hb. by right.
Qed.

(** *** Histories *)
Lemma mrun_snoc l o s : mrun s (l ++ [o]) = match mrun s l with Panic => Panic | Ok s' => mstep s' o end.
Proof. revert s. induction l as [|x l IH]; intros s; cbn [app mrun]; [by destruct (mstep s o)|]. by destruct (mstep s x). Qed.
Lemma built_pipes_app l1 l2 : built_pipes (l1 ++ l2) = built_pipes l1 ++ built_pipes l2.
Proof.
  induction l1 as [|x l IH]; [done|]. destruct x; cbn [app built_pipes]; try done. rewrite IH. by repeat case_match.
Qed.
Lemma shows_fun ds ty id l r r' : shows ds ty id l r → shows ds ty id l r' → r = r'.
Proof using emptyCfg.
  clear unpack reg CfgVal.
  intros H. revert r'. induction H as [|l n c H IH Hn Hm|l n c k H IH Hn Hm|l n c r H IH Hn Hm|l o r H IH Ho]; intros r' H'; inversion H' as [E|? ? ? H1 ? ? E|? ? ? ? H1 ? ? E|? ? ? ? H1 ? ? E|? ? ? H1 Ho' E];
    try (by destruct l); try (apply app_inj_tail in E as [-> E]); subst; simplify_eq; try done;
    try (by apply IH in H1); try (by exfalso; naive_solver).
Qed.
Record minv (w0 : world) (l : list (mop CfgMap)) (s : mstate CfgMap) : Prop := mkMInv {
  mi_pipes : map (λ x, x.1.1) (ms_pipes s) = built_pipes l;
  mi_new : ∀ n c pl lg, ms_pipes s !! n = Some (c, pl, lg) → New emptyCfg unpack reg c = Ok (inl pl);
  mi_keys : NoDup (map co_key (ms_reg s));
  mi_reg : ∀ ds ty id, built_pipes l `prefix_of` ds → ∃ r, shows ds ty id l r ∧
    ∀ k m, mkColl k m ty id ∈ ms_reg s ↔ (valid_utf8 ty ∧ valid_utf8 id) ∧ r = Some k
}.
Lemma pipes_ds (ps : list (config CfgMap * pipeline * list (string * metric))) (ds0 ds : list (config CfgMap)) n x :
  map (λ x, x.1.1) ps = ds0 → ds0 `prefix_of` ds → ps !! n = Some x → ds !! n = Some x.1.1.
Proof.
  intros <- [ds' ->] H. apply lookup_app_l_Some. apply (list_lookup_fmap (λ x, x.1.1)) || idtac. by rewrite list_lookup_fmap, H.
Qed.
Lemma measured_dec c pl ty id : New emptyCfg unpack reg c = Ok (inl pl) → measured c ty id ∨ ¬ measured c ty id.
Proof.
  intros H. apply New_ok in H as (_ & _ & H & _). apply built_paired in H as [_ H].
  destruct (decide ((id, ty) ∈ combine (map p_id (pps_all (pl_processors pl))) (procs_types (cf_procs c)))) as [Hd|Hd]; rewrite H in Hd; [by left|by right].
Qed.
Lemma mrun_inv w0 l s : mrun (mstart w0) l = Ok s → minv w0 l s.
Proof.
  revert s. induction l as [|o l IH] using rev_ind; intros s H.
  { cbn in H. injection H as <-. split; cbn; try done; [constructor|]. intros ds ty id _. exists None. split; [constructor|]. intros k m. rewrite elem_of_nil. naive_solver. }
  rewrite mrun_snoc in H. destruct (mrun (mstart w0) l) as [s0|]; [|done]. destruct (IH s0 eq_refl) as [H1 H2 H3 H4]. clear IH.
  destruct o as [c|n|n|n evt]; cbn [mstep] in H.
  - assert (∀ ds ty id, built_pipes (l ++ [MNew c]) `prefix_of` ds → ∃ r, shows ds ty id (l ++ [MNew c]) r ∧
      ∀ k m, mkColl k m ty id ∈ ms_reg s0 ↔ (valid_utf8 ty ∧ valid_utf8 id) ∧ r = Some k) as Hreg.
    { intros ds ty id Hds. destruct (H4 ds ty id) as (r & Hr1 & Hr2). { rewrite built_pipes_app in Hds. by eapply prefix_app_l. }
      exists r. split; [|done]. apply sh_other; [done|]. naive_solver. }
    destruct (New emptyCfg unpack reg c) as [[pl|e]|] eqn:E; [| |done]; injection H as <-; (split; cbn [ms_pipes ms_reg]; try done).
    + rewrite map_app, built_pipes_app, H1. cbn. by rewrite E.
    + intros n c' pl' lg Hn. apply lookup_app_Some in Hn as [Hn|[_ Hn]]; [by eapply H2|].
      apply list_lookup_singleton_Some in Hn as [_ [= <- <- <-]]. done.
    + rewrite built_pipes_app, H1. cbn. rewrite E. by rewrite app_nil_r.
  - destruct (ms_pipes s0 !! n) as [[[c pl] lg]|] eqn:En; [|done]. injection H as <-. pose proof (H2 _ _ _ _ En) as Hnew.
    destruct (register_spec (collectors n pl (procs_types (cf_procs c))) (ms_reg s0)) as [Hs1 Hs2]; [by eapply New_collectors_keys|done|].
    split; cbn [ms_pipes ms_reg]; try done; [by rewrite built_pipes_app, app_nil_r|].
    intros ds ty id Hds. rewrite built_pipes_app, app_nil_r in Hds. destruct (H4 ds ty id Hds) as (r & Hr1 & Hr2).
    pose proof (pipes_ds _ _ _ _ _ H1 Hds En) as Hdn. cbn in Hdn.
    destruct (measured_dec c pl ty id Hnew) as [Hm|Hm].
    + exists (match r with None => Some n | Some k => Some k end). split; [destruct r; by econstructor|].
      intros k m. rewrite Hs2, (New_collectors _ _ _ _ _ _ _ Hnew), Hr2, describable_iff. cbn [co_type co_id co_key co_metric]. split.
      * intros [[? ->]|([-> _] & Hv & Hnk)]; [done|]. split; [done|]. destruct r as [k|]; [|done].
        destruct Hnk. apply elem_of_list_fmap. exists (mkColl k m ty id). split; [done|]. by apply Hr2.
      * intros [Hv Hk]. destruct r as [k'|]; [left; by split|]. injection Hk as <-. right. split_and!; try done; try apply Hv.
        intros Hin. apply elem_of_list_fmap in Hin as ([k' m' ty' id'] & Heq & Hin). unfold co_key in Heq. cbn in Heq. injection Heq as <- <- <-. apply Hr2 in Hin as [_ ?]. done.
    + exists r. split. { apply sh_other; [done|]. intros n' c' [[= <-]|[=]] Hc'. by simplify_eq. }
      intros k m. rewrite Hs2, (New_collectors _ _ _ _ _ _ _ Hnew), Hr2. naive_solver.
  - destruct (ms_pipes s0 !! n) as [[[c pl] lg]|] eqn:En; [|done]. injection H as <-. pose proof (H2 _ _ _ _ En) as Hnew.
    destruct (unregister_spec (collectors n pl (procs_types (cf_procs c))) (ms_reg s0) H3) as [Hs1 Hs2].
    split; cbn [ms_pipes ms_reg]; try done; [by rewrite built_pipes_app, app_nil_r|].
    intros ds ty id Hds. rewrite built_pipes_app, app_nil_r in Hds. destruct (H4 ds ty id Hds) as (r & Hr1 & Hr2).
    pose proof (pipes_ds _ _ _ _ _ H1 Hds En) as Hdn. cbn in Hdn.
    destruct (measured_dec c pl ty id Hnew) as [Hm|Hm].
    + exists None. split; [by eapply sh_gone|]. intros k m. rewrite Hs2, Hr2. split; [|by intros [_ ?]].
      intros [[Hv ->] Hno]. exfalso. apply (Hno (mkColl n m ty id)); [by apply (New_collectors _ _ _ _ _ _ _ Hnew)|by apply describable_iff|done].
    + exists r. split. { apply sh_other; [done|]. intros n' c' [[=]|[= <-]] Hc'. by simplify_eq. }
      intros k m. rewrite Hs2, Hr2. split; [by intros [??]|]. intros H. split; [done|]. intros [k' m' ty' id'] Hin Hd Heq.
      unfold co_key in Heq. cbn in Heq. injection Heq as -> -> ->. apply (New_collectors _ _ _ _ _ _ _ Hnew) in Hin as [_ ?]. done.
  - destruct (ms_pipes s0 !! n) as [[[c pl] lg]|] eqn:En; [|done]. destruct (Process _ _ _) as [[[w r] err]|] eqn:Ep; [|done]. injection H as <-.
    split; cbn [ms_pipes ms_reg]; try done.
    + rewrite built_pipes_app, app_nil_r, <- H1. apply list_eq. intros i. rewrite !list_lookup_fmap. destruct (decide (i = n)) as [->|Hne].
      * rewrite list_lookup_insert by (by eapply lookup_lt_Some). by rewrite En.
      * by rewrite list_lookup_insert_ne.
    + intros i c' pl' lg' Hi. destruct (decide (i = n)) as [->|Hne].
      * rewrite list_lookup_insert in Hi by (by eapply lookup_lt_Some). injection Hi as <- <- <-. by eapply H2.
      * rewrite list_lookup_insert_ne in Hi by done. by eapply H2.
    + intros ds ty id Hds. rewrite built_pipes_app, app_nil_r in Hds. destruct (H4 ds ty id Hds) as (r' & Hr1 & Hr2).
      exists r'. split; [|done]. apply sh_other; [done|]. naive_solver.
Qed.
End history.
