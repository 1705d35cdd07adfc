(** * C57: from the definition of a pipeline to what it does.

    [init_all names NewRegistry]: importing the packages of the built-in processors
    [names] into a program; the registry it leaves.  [New emptyCfg unpack r c]:
    pipeline.New of the definition [c].  [unpack]: the configuration library, of which
    [unpacks] is assumed.  [defines … c b] (Builtins.v): what the definition [c] says,
    as options of built-in processors; [sem_pipe b]: what a pipeline configured as [b]
    does to the fields of an event (PipeSpec.v). *)
From Verif Require Import Builtins PipelineRun.

(** The six packages. *)
Definition packages : list string := ["lowercase"; "uppercase"; "append"; "set"; "remove"; "community_id"].
Lemma packages_known x : x ∈ packages ↔ builtin_zero x ≠ None.
Proof.
  unfold packages, builtin_zero. rewrite !elem_of_cons, elem_of_nil.
  repeat match goal with |- context [String.eqb ?a ?b] => destruct (String.eqb_spec a b) as [->|?] end; intuition congruence.
Qed.
(** Any of them can be imported together, in any order; afterwards exactly they are
    registered. *)
Theorem C57_imports : ∀ lo up names, NoDup names → (∀ x, x ∈ names → x ∈ packages) →
  ∃ r, init_all lo up names NewRegistry = Ok r ∧ ∀ x, mget x r ≠ None ↔ x ∈ names.
Proof.
  intros lo up names Hnd Hk. destruct (init_all_ok lo up names NewRegistry Hnd) as (r & Hr & Hrr); [|done|].
  { intros x Hx. by apply packages_known, Hk. }
  exists r. split; [done|]. intros x. split.
  - intros H. destruct (mget x r) as [c|] eqn:E; [|done]. apply Hrr in E as [E|[E _]]; [done|done].
  - intros Hx H. pose proof (proj1 (packages_known x) (Hk x Hx)) as Hz. destruct (builtin_zero x) as [zero|] eqn:Ez; [|done].
    assert (mget x r = Some (mkCtor (cfg_type zero) (f_call (new_func lo up zero)) true)) by (apply Hrr; right; split; [done|by exists zero]). congruence.
Qed.
Print Assumptions C57_imports.
(** Registering one twice panics. *)
Theorem C57_twice_panics : ∀ lo up a b c x, x ∈ packages →
  NoDup (a ++ x :: b) → (∀ y, y ∈ a ++ x :: b → y ∈ packages) →
  init_all lo up (a ++ x :: b ++ x :: c) NewRegistry = Panic.
Proof.
  intros lo up a b c x Hx Hnd Hk.
  assert (∀ l l' r, init_all lo up (l ++ l') r = match init_all lo up l r with Panic => Panic | Ok r' => init_all lo up l' r' end) as Happ.
  { intros l. induction l as [|y l IH]; intros l' r; [done|]. cbn [app init_all]. destruct (builtin_zero y); [|done].
    destruct (MustRegister _ _ _); [apply IH|done]. }
  change (x :: b ++ x :: c) with ((x :: b) ++ x :: c). rewrite app_assoc, Happ.
  destruct (C57_imports lo up (a ++ x :: b) Hnd Hk) as (r & -> & Hr). cbn [init_all].
  pose proof (proj1 (packages_known x) Hx) as Hz. destruct (builtin_zero x) as [zero|]; [|done].
  assert (mget x r ≠ None) as Hg by (apply Hr, elem_of_app; right; apply elem_of_cons; by left).
  unfold MustRegister, Register. destruct (mget x r) as [k|] eqn:E; [|done]. done.
Qed.
Print Assumptions C57_twice_panics.

(** A program that imports the packages [names] and gets the registry [r]. *)
Definition imports (lo up : string → string) (names : list string) (r : registry bcfg proc) : Prop :=
  NoDup names ∧ (∀ x, x ∈ names → x ∈ packages) ∧ init_all lo up names NewRegistry = Ok r.
Lemma imported_holds lo up names r : imports lo up names r → holds_builtins lo up names r.
Proof.
  intros (distinct & known & imported).
  destruct (init_all_ok lo up names NewRegistry distinct) as (r' & Hr & Hrr); [intros x Hx; by apply packages_known, known|done|].
  assert (r' = r) as -> by congruence. intros name c. rewrite Hrr. split; [|by right]. intros [H|H]; [done|done].
Qed.
(** A definition is accepted exactly if it defines something, and the pipeline made is
    the one defined. *)
Theorem C57_new_builds_what_is_defined : ∀ lo up (CfgMap : Type) (emptyCfg : CfgMap) unpack names r h c,
  imports lo up names r → unpacks unpack h →
  (∀ pl, New emptyCfg unpack r c = Ok (inl pl) → ∃ b, defines lo up emptyCfg unpack names h c b ∧ pipe_as h b pl) ∧
  (∀ b, defines lo up emptyCfg unpack names h c b → ∃ pl, New emptyCfg unpack r c = Ok (inl pl) ∧ pipe_as h b pl).
Proof.
  intros lo up CfgMap emptyCfg unpack names r h c Him Hu. pose proof (imported_holds _ _ _ _ Him) as Hr. destruct Him as (_ & known & _). split.
  - intros pl H. apply New_ok in H as (Hid & _ & H1 & H2).
    destruct (built_describes lo up emptyCfg unpack names h r Hr Hu) as [_ Hb].
    destruct (Hb _ _ _ _ H1) as (b1 & Hd1 & Ha1). destruct (Hb _ _ _ _ H2) as (b2 & Hd2 & Ha2).
    exists (mkBPipe b1 b2). by split; split.
  - intros b (Hid & H1 & H2).
    destruct (describes_built lo up emptyCfg unpack names h r Hr Hu) as [_ Hb]; [intros x Hx; by apply packages_known, known|].
    destruct (Hb _ _ _ _ H1) as (q1 & Hd1 & Ha1). destruct (Hb _ _ _ _ H2) as (q2 & Hd2 & Ha2).
    exists (mkPipeline (cf_id c) q1 q2). split; [by apply New_ok|]. by split.
Qed.
(** Hence what a pipeline does can be read off its definition. *)
Theorem C57_definition_semantics_partial : ∀ lo up (CfgMap : Type) (emptyCfg : CfgMap) unpack names r c pl b w i m fp,
  imports lo up names r → unpacks unpack (w_heap w) →
  New emptyCfg unpack r c = Ok (inl pl) → defines lo up emptyCfg unpack names (w_heap w) c b →
  showing w i m fp →
  match sem_pipe b m with
  | Gives (m', err, counted) => ∃ w' fp',
      Process pl w (Some i) = Ok (w', match err with None => Some i | Some _ => None end, err) ∧
      showing w' i m' fp' ∧ w_log w' = w_log w ++ counted
  | Crashes => Process pl w (Some i) = Panic
  | Shares => True (* not covered: a container was copied *)
  end.
Proof.
  intros lo up CfgMap emptyCfg unpack names r c pl b w i m fp Him Hu Hn Hd Hs.
  destruct (C57_new_builds_what_is_defined lo up CfgMap emptyCfg unpack names r (w_heap w) c Him Hu) as [_ H]. destruct (H b Hd) as (pl' & Hn' & Hb).
  assert (pl' = pl) as -> by congruence.
  pose proof (pipe_sem b pl w (mkPEvent (Some i) false false) i m fp Hb eq_refl eq_refl Hs) as Hp.
  unfold Process. destruct (sem_pipe b m) as [[[m' err] lg]| |]; cbn [grun_to] in Hp; [|by rewrite Hp|done].
  destruct Hp as (w' & -> & Hm & Hlg). destruct Hm as ((fp' & Hsh & Hfp) & _).
  exists w', fp'. split; [by destruct err|]. by split.
Qed.
(** lowercase, uppercase, append and remove have no ignore_failure option: their failures
    are never ignored, whatever is written in the definition. *)
Theorem C57_ignore_failure_refuted : ∀ lo up (CfgMap : Type) (emptyCfg : CfgMap) unpack names h base i name o id ignore_failure ignore_missing on_failure b,
  unpacks unpack h → name ∈ ["lowercase"; "uppercase"; "append"; "remove"] →
  describes lo up emptyCfg unpack names h base i [(name, o)] (BProc id ignore_failure ignore_missing on_failure b) →
  ignore_failure = false.
Proof.
  intros lo up CfgMap emptyCfg unpack names h base i name o id ignf ignm onf b Hu Hn Hd. inversion Hd as [? ? ? ? v ? ? ? ? Hin Hv Hc Hf Hm Ho]; subst.
  destruct (Hu _ _ _ Hv) as [Hty _]. destruct ignf; [|done]. pose proof (proj1 Hf eq_refl) as He.
  rewrite !elem_of_cons, elem_of_nil in Hn. destruct He; destruct Hn as [->|[->|[->|[->|[]]]]]; done.
Qed.
Print Assumptions C57_new_builds_what_is_defined.
Print Assumptions C57_definition_semantics_partial.
Print Assumptions C57_ignore_failure_refuted.

(** An example: a program with lowercase and set.  Option maps are lists of strings. *)
Definition ex_lo (s : string) : string := if String.eqb s "A" then "a" else s.
Definition ex_unpack (ty : string) (m : list string) : bcfg + goerr :=
  if String.eqb ty "lowercase.Config" then
    match m with f :: t :: _ => inl (CfLowercase f t false) | _ => inr (EMsg "missing required field") end
  else if String.eqb ty "set.Config" then
    match m with t :: _ => inl (CfSet "" t 0 true false) | _ => inr (EMsg "missing required field") end
  else inr (EMsg "not used").
Definition ex_h : heap := mkHeap [mkBool true] [].
Lemma ex_unpacks : unpacks ex_unpack ex_h.
Proof.
  intros ty m v. unfold ex_unpack. destruct (String.eqb_spec ty "lowercase.Config") as [->|?]; [|destruct (String.eqb_spec ty "set.Config") as [->|?]; [|done]].
  - destruct m as [|f [|t m]]; try done. intros [= <-]. done.
  - destruct m as [|t m]; try done. intros [= <-]. split; [done|]. exists (TBool true). by exists (mkBool true).
Qed.
Definition ex_c : config (list string) :=
  mkConfig "p" "" [[("lowercase", Some (OptCfg "" "" [[("set", Some (OptCfg "" "" [] ["failed"]))]] ["a"; "b"]))]] [].
Definition ex_b : bpipe := mkBPipe
  [BProc "p.processors[0].lowercase" false false
    [BProc "p.processors[0].lowercase.on_failure[0].set" true false [] (BSet "failed" (TBool true))] (BLowercase ex_lo "a" "b")] [].
Example C57_ex : ∃ r pl, init_all ex_lo ex_lo ["lowercase"; "set"] NewRegistry = Ok r ∧
  New [] ex_unpack r ex_c = Ok (inl pl) ∧ defines ex_lo ex_lo [] ex_unpack ["lowercase"; "set"] ex_h ex_c ex_b ∧
  sem_pipe ex_b [("a", TStr "A")] = Gives ([("a", TStr "A"); ("b", TStr "a")], None,
    [("p.processors[0].lowercase", MIn); ("p.processors[0].lowercase", MOut)]) ∧
  sem_pipe ex_b [] = Gives ([("failed", TBool true)], None,
    [("p.processors[0].lowercase", MIn); ("p.processors[0].lowercase.on_failure[0].set", MIn);
     ("p.processors[0].lowercase.on_failure[0].set", MOut); ("p.processors[0].lowercase", MErrors)]).
Proof.
  eexists _, _. split; [reflexivity|]. split; [vm_compute; reflexivity|]. split; [|split; vm_compute; reflexivity].
  split; [done|]. split; [|constructor]. constructor; [|constructor].
  refine (de_entry ex_lo ex_lo [] ex_unpack ["lowercase"; "set"] ex_h "p.processors" 0 "lowercase" _ (CfLowercase "a" "b" false) _ false false _ _ _ _ _ _ _).
  1: by left. 1: done. 1: by constructor. 1: by split; [|intros H; inversion H]. 1: by split; [|intros H; inversion H].
  constructor; [|constructor].
  refine (de_entry ex_lo ex_lo [] ex_unpack ["lowercase"; "set"] ex_h "p.processors[0].lowercase.on_failure" 0 "set" _ (CfSet "" "failed" 0 true false) _ true false [] _ _ _ _ _ _).
  1: by right; left. 1: done. 1: constructor; [by exists (mkBool true)|done]. 1: by split; [intros _; constructor|]. 1: by split; [|intros H; inversion H]. constructor.
Qed.
