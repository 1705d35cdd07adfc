(** * The two generators from processors.yml to the files they write:
    pkg/processor/generate/generate.go and docs/generate/generate.go, main. *)
From Verif Require Export Schema Gen.
From Verif Require Import GenProps.
Local Open Scope Z_scope.

(** text/template's truth of a default (text/template exec.go IsTrue). *)
Definition template_true (v : yval) : bool :=
  match v with
  | VNil => false
  | VBool b => b
  | VInt z | VUint z => negb (z =? 0)
  | VFloat b => negb ((b =? 0) || (b =? 2 ^ 63))
  | VStr s => negb (String.eqb s "")
  | VTime _ => true
  | VList l => match l with [] => false | _ => true end
  | VMap m => match m with [] => false | _ => true end
  | VGeneral m => match m with [] => false | _ => true end
  end.
Section generators.
  (** Sprintf("%v") of a default that is not a string. *)
  Context (show : yval → list ascii).
  (** What the templates are given (Gen.v) of what processors.yml says. *)
  Definition default_of (v : yval) : option default_value :=
    match v with
    | VNil => None
    | VStr s => Some (DString (txt s))
    | _ => Some (DOther (show v) (template_true v))
    end.
  Definition option_of (o : yoption) : option_def :=
    mkOpt (txt (yo_name o)) (txt (yo_type o)) (yo_required o) (yo_optional o) (default_of (yo_default o)) (txt (yo_desc o)).
  Definition proc_of (p : yproc) : proc_def := Gen.mkProc (txt (yp_desc p)) (map option_of (yp_conf p)).
  Definition entries_of (ps : list (string * yproc)) : list (list ascii * proc_def) := map (λ e, (txt e.1, proc_of e.2)) ps.
  (** How a run ends: a crash, log.Fatal, or normally. *)
  Inductive run_end : Type := Crashed | Failed | Completed.
  Context (gofmt : list ascii → option (list ascii)) (find_process : list ascii → option bool).
  (** pkg/processor/generate/generate.go:64-121 main, run with the processors.yml [f] and
      the files [fs].  A nil pointer is dereferenced at line 78.  The maps of the list are
      visited in any order, each. *)
  Inductive generate_main (lib : library) (lic : list ascii) (f : yfile) (fs : files) : files → run_end → Prop :=
  | gm_unread : ReadProcessorsYAMLFile f = None → generate_main lib lic f fs fs Failed
  | gm_nil : ReadProcessorsYAMLFile f = Some None → generate_main lib lic f fs fs Crashed
  | gm_run ps ms fs' completed : ReadProcessorsYAMLFile f = Some (Some ps) → Forall2 Permutation ps ms →
      generator_run gofmt find_process lib lic fs (concat (map entries_of ms)) fs' completed →
      generate_main lib lic f fs fs' (if completed then Completed else Failed).
  (** docs/generate/generate.go:61-98 main: what is written to README.md, if anything.  The
      error of ExecuteTemplate is not looked at (line 90 looks at the one before), but
      executing this template on these data gives none.  Simplified: the write succeeds. *)
  Inductive docs_main (intro : list ascii) (f : yfile) : option (list ascii) → run_end → Prop :=
  | dm_unread : ReadProcessorsYAMLFile f = None → docs_main intro f None Failed
  | dm_nil : ReadProcessorsYAMLFile f = Some None → docs_main intro f None Crashed
  | dm_run ps text : ReadProcessorsYAMLFile f = Some (Some ps) → readme intro (map entries_of ps) text →
      docs_main intro f (Some text) Completed.
End generators.

(** ** Proofs *)
Lemma run_writes gofmt find_process lib lic fs ps fs' : generator_run gofmt find_process lib lic fs ps fs' true → NoDup (map fst ps) →
  ∀ name p, (name, p) ∈ ps → ∃ conf imports src out, sorted_options (p_conf p) conf ∧ configTypeImports conf imports ∧
    source_text lib lic name imports (Gen.mkProc (p_desc p) conf) (include_process find_process (fs name)) = Some src ∧
    gofmt src = Some out ∧ fs' name = Some out.
Proof.
  intros H. remember true as d eqn:Ed. induction H as [fs|fs ps|fs name p ps fs1 fs2 d Hg Hr IH]; intros Hn nm q Hin; [by apply elem_of_nil in Hin|done|].
  cbn [map fst] in Hn. apply NoDup_cons in Hn as [Hnew Hn]. destruct Hg as (conf & imports & src & out & H1 & H2 & H3 & H4 & ->).
  apply elem_of_cons in Hin as [[= -> ->]|Hin].
  - exists conf, imports, src, out. repeat (split; [assumption|]). rewrite (C69_other_files _ _ _ _ _ _ _ _ name Hr Hnew). unfold write_file.
    by rewrite bool_decide_true.
  - destruct (IH Ed Hn nm q Hin) as (conf' & imports' & src' & out' & E1 & E2 & E3 & E4 & E5). exists conf', imports', src', out'.
    split; [done|]. split; [done|]. split; [|done]. unfold write_file in E3. rewrite bool_decide_false in E3; [done|].
    intros ->. apply Hnew. apply elem_of_list_fmap. by exists (name, q).
Qed.
Lemma entries_permuted show ps ms : Forall2 Permutation ps ms → concat (map (entries_of show) ps) ≡ₚ concat (map (entries_of show) ms).
Proof. induction 1 as [|p m ps ms Hp _ IH]; [done|]. cbn [map concat]. rewrite IH. unfold entries_of. by rewrite Hp. Qed.
Lemma txt_inj a b : txt a = txt b → a = b.
Proof. unfold txt. intros E. rewrite <- (string_of_list_ascii_of_string a), <- (string_of_list_ascii_of_string b). by rewrite E. Qed.
Lemma entries_names show ps : map fst (concat (map (entries_of show) ps)) = map txt (map fst (concat ps)).
Proof.
  induction ps as [|p ps IH]; [done|]. cbn [map concat]. rewrite !map_app, IH. f_equal. unfold entries_of. rewrite !map_map. done.
Qed.
Lemma NoDup_txt l : NoDup l → NoDup (map txt l).
Proof. intros H. assert (Inj (=) (=) txt) as Hi by (intros a b; apply txt_inj). by apply (NoDup_fmap_2 txt). Qed.
Lemma include_iff find_process f : include_process find_process f = true ↔ ∀ s, f = Some s → find_process s ≠ Some false.
Proof.
  unfold include_process. destruct f as [s|]; [|split; done]. split.
  - intros H s' [= <-] E. by rewrite E in H.
  - intros H. specialize (H s eq_refl). by destruct (find_process s) as [[]|].
Qed.
